(** C144: numbers on their way from the studio page into the scene. *)
From Coq Require Import Reals ZArith List Bool Arith Lia Lra.
From Verif Require Import Base TallyModel SpecModel TextModel.
Import ListNotations.
Open Scope nat_scope.

(** ** Digits *)
Definition starts_no_digit (t : text) : Prop := match t with D _ :: _ => False | _ => True end.
Lemma span_ds l t : starts_no_digit t -> span (ds l ++ t) = (l, t).
Proof. intros H. induction l as [|n l IH]; simpl; [destruct t as [|[] t]; try reflexivity; destruct H|]. fold (ds l). now rewrite IH. Qed.
Lemma span_ds_all l : span (ds l) = (l, []).
Proof. rewrite <- (app_nil_r (ds l)). now apply span_ds. Qed.
Lemma ds_app a b : ds (a ++ b) = ds a ++ ds b.
Proof. apply map_app. Qed.

Lemma strip_zeros i l : strip (repeat 0 i ++ l) = strip l.
Proof. induction i as [|i IH]; simpl; auto. Qed.
Lemma strip_id l : match l with 0 :: _ => False | _ => True end -> strip l = l.
Proof. destruct l as [|[|n] l]; simpl; tauto. Qed.
Lemma rev_repeat {A} (x : A) n : rev (repeat x n) = repeat x n.
Proof.
  assert (G : repeat x (S n) = repeat x n ++ [x]) by (clear; induction n as [|n IH]; simpl in *; [reflexivity|now rewrite IH]).
  induction n as [|n IH]; [reflexivity|]. simpl rev. rewrite IH by (clear; induction n as [|n IH]; simpl in *; [reflexivity|now rewrite IH]).
  clear. induction n as [|n IH]; simpl; [reflexivity|now rewrite IH].
Qed.
Lemma strip_end_zeros l j : last l 1 <> 0 -> strip_end (l ++ repeat 0 j) = l.
Proof.
  intros H. unfold strip_end. rewrite rev_app_distr, rev_repeat, strip_zeros.
  destruct l as [|a l] using rev_ind; [reflexivity|]. rewrite last_last in H. rewrite rev_app_distr. simpl. destruct a; [contradiction|]. simpl. now rewrite rev_involutive.
Qed.

(** ** Reading gives back the decimal *)
Definition proper (l : list nat) : Prop := match l with [] => False | a :: _ => a <> 0 end /\ last l 1 <> 0.
Lemma canon_of neg a b x i j l : proper l -> a ++ b = repeat 0 i ++ l ++ repeat 0 j ->
  canon neg a b x = Dec neg l (Z.of_nat (length a) + x - Z.of_nat i).
Proof.
  intros [H1 H2] E. unfold canon. rewrite E, strip_zeros.
  assert (S : strip (l ++ repeat 0 j) = l ++ repeat 0 j) by (apply strip_id; destruct l as [|[|n] l]; simpl; tauto).
  rewrite S, strip_end_zeros by exact H2. destruct l as [|c l]; [destruct H1|]. f_equal.
  rewrite app_length, repeat_length, (app_length (c :: l)). lia.
Qed.
Lemma canon_zero neg x i j : canon neg (repeat 0 i) (repeat 0 j) x = Dec neg [] 0.
Proof. unfold canon. rewrite strip_zeros. rewrite <- (app_nil_r (repeat 0 j)), strip_zeros. reflexivity. Qed.

Lemma exponent_ok m : m < 1000 -> digits_value (exponent m) = Z.of_nat m /\ exponent m <> [].
Proof.
  intros H. unfold exponent. destruct (Nat.ltb_spec m 10); [split; [unfold digits_value; simpl; lia|discriminate]|].
  destruct (Nat.ltb_spec m 100).
  - split; [|discriminate]. unfold digits_value. cbn [fold_left]. pose proof (Nat.div_mod m 10 ltac:(lia)). lia.
  - split; [|discriminate]. unfold digits_value. cbn [fold_left]. pose proof (Nat.div_mod m 10 ltac:(lia)). pose proof (Nat.div_mod (m / 10) 10 ltac:(lia)) as A.
    rewrite Nat.div_div in A by lia. change (10 * 10) with 100 in A. lia.
Qed.
Lemma exponent2_ok m : m < 1000 -> digits_value (exponent2 m) = Z.of_nat m /\ exponent2 m <> [].
Proof. intros H. unfold exponent2. destruct (Nat.ltb_spec m 10); [split; [unfold digits_value; simpl; lia|discriminate]|now apply exponent_ok]. Qed.
Lemma exp_value x l : digits_value l = Z.of_nat (Z.abs_nat x) -> exponent_value (exp_sign x) l = x.
Proof. intros H. unfold exp_sign, exponent_value. rewrite H, Zabs2Nat.id_abs. destruct (Z.ltb_spec x 0); lia. Qed.

Lemma plain_proper l j : proper l -> plain_int (l ++ repeat 0 j) = true.
Proof. intros [H _]. destruct l as [|[|a] [|b l]]; simpl; try tauto. now destruct (repeat 0 j). Qed.
Lemma plain_one a : plain_int [a] = true.
Proof. now destruct a. Qed.
Lemma plain_firstn l n : proper l -> 1 <= n -> plain_int (firstn n l) = true.
Proof. intros [H _] L. destruct n as [|n]; [lia|]. destruct l as [|[|a] l]; simpl; try tauto. now destruct (firstn n l). Qed.

Lemma read_sign_text plus neg n t : read_sign plus (sign_text neg ++ D n :: t) = (neg, D n :: t).
Proof. destruct neg; [reflexivity|]. simpl. now destruct plus. Qed.

(** *** JSON *)
Definition whole (d : decimal) : bool := (Z.of_nat (length (d_digits d)) <=? d_point d)%Z && (d_point d <=? 21)%Z.

Lemma json_scientific neg l x : proper l -> (-999 < x < 999)%Z ->
  json_read (sign_text neg ++ scientific exponent l x) = Some (PyFloat (Dec neg l (x + 1))).
Proof.
  intros P Hx. destruct (exponent_ok (Z.abs_nat x) ltac:(lia)) as [Ev En].
  destruct l as [|a rest] eqn:El; [destruct P as [[] _]|]. rewrite <- El in *. unfold json_read. rewrite El at 1. cbn [scientific].
  rewrite read_sign_text. set (ex := exponent (Z.abs_nat x)) in *. clearbody ex.
  assert (C : forall c, canon neg [a] rest (exponent_value (exp_sign x) ex) = c -> c = Dec neg l (x + 1)).
  { intros c <-. rewrite (canon_of neg [a] rest _ 0 0 l P) by (rewrite El; simpl; now rewrite app_nil_r). rewrite exp_value by exact Ev. f_equal. cbn [length]. lia. }
  destruct ex as [|e0 ex]; [contradiction|].
  destruct rest as [|r rest].
  - change (D a :: [] ++ E :: exp_sign x :: ds (e0 :: ex)) with (ds [a] ++ E :: exp_sign x :: ds (e0 :: ex)). rewrite span_ds by exact I.
    rewrite plain_one. cbn [negb]. rewrite <- (C _ eq_refl). unfold exp_sign. destruct (x <? 0)%Z; cbv beta iota zeta; rewrite span_ds_all; reflexivity.
  - change (D a :: (Dot :: ds (r :: rest)) ++ E :: exp_sign x :: ds (e0 :: ex)) with (ds [a] ++ Dot :: ds (r :: rest) ++ E :: exp_sign x :: ds (e0 :: ex)).
    rewrite span_ds by exact I. rewrite plain_one. cbn [negb]. rewrite span_ds by exact I. rewrite <- (C _ eq_refl).
    unfold exp_sign. destruct (x <? 0)%Z; cbv beta iota zeta; rewrite span_ds_all; reflexivity.
Qed.

Lemma json_back d : shortest d -> json_read (js_text d) =
  Some (match d_digits d with [] => PyInt (Dec false [] 0) | _ => if whole d then PyInt d else PyFloat d end).
Proof.
  intros (_ & H1 & H2 & H3). destruct d as [neg l n]. cbn [d_digits d_neg d_point] in *. unfold js_text, whole. cbn [d_digits d_neg d_point].
  destruct l as [|c l0] eqn:El; [reflexivity|]. rewrite <- El in *. assert (P : proper l) by (split; [rewrite El in *; exact H1|exact H2]).
  assert (Hd : l = c :: l0) by exact El. clear El. assert (M : forall A (u v : A), match l with [] => u | _ :: _ => v end = v) by (intros; now rewrite Hd). rewrite ?M.
  destruct ((Z.of_nat (length l) <=? n)%Z && (n <=? 21)%Z) eqn:C1.
  - apply andb_prop in C1. destruct C1 as [C1 _]. apply Z.leb_le in C1. unfold json_read.
    assert (Es : ds (l ++ zeros (n - Z.of_nat (length l))) = D c :: ds (l0 ++ zeros (n - Z.of_nat (length l)))) by (rewrite Hd; reflexivity).
    rewrite Es, read_sign_text, <- Es, span_ds_all. unfold zeros at 1. rewrite plain_proper by exact P. cbn [negb].
    rewrite (canon_of neg _ [] 0 0 (Z.to_nat (n - Z.of_nat (length l))) l P) by (simpl; now rewrite app_nil_r). do 3 f_equal.
    unfold zeros. rewrite app_length, repeat_length. lia.
  - destruct ((0 <? n)%Z && (n <=? 21)%Z) eqn:C2; [|destruct ((-6 <? n)%Z && (n <=? 0)%Z) eqn:C3].
    + apply andb_prop in C2. destruct C2 as [C2 C2']. apply Z.ltb_lt in C2. rewrite C2', andb_true_r in C1. apply Z.leb_gt in C1. unfold json_read.
      assert (Ef : ds (firstn (Z.to_nat n) l) = D c :: ds (firstn (Z.to_nat n - 1) l0)) by (rewrite Hd; replace (Z.to_nat n) with (S (Z.to_nat n - 1)) at 1 by lia; reflexivity).
      rewrite Ef. cbn [app]. rewrite read_sign_text, app_comm_cons, <- Ef, span_ds by exact I. rewrite plain_firstn by (try exact P; lia). cbn [negb].
      rewrite span_ds_all. destruct (skipn (Z.to_nat n) l) as [|s0 sk] eqn:Es.
      { exfalso. pose proof (skipn_length (Z.to_nat n) l). rewrite Es in H. simpl in H. lia. }
      rewrite <- Es, (canon_of neg _ _ 0 0 0 l P) by (simpl; now rewrite firstn_skipn, app_nil_r). do 3 f_equal. rewrite firstn_length. lia.
    + apply andb_prop in C3. destruct C3 as [_ C3]. apply Z.leb_le in C3. unfold json_read. rewrite read_sign_text.
      change (D 0 :: Dot :: ds (zeros (- n) ++ l)) with (ds [0] ++ Dot :: ds (zeros (- n) ++ l)). rewrite span_ds by exact I. rewrite plain_one. cbn [negb].
      rewrite span_ds_all. destruct (zeros (- n) ++ l) as [|s0 sk] eqn:Es; [rewrite Hd in Es; now destruct (zeros (- n))|].
      rewrite <- Es, (canon_of neg [0] (zeros (- n) ++ l) 0 (S (Z.to_nat (- n))) 0 l P) by (simpl; unfold zeros; now rewrite app_nil_r). do 3 f_equal. cbn [length]. lia.
    + rewrite json_scientific by (try exact P; lia). do 3 f_equal. lia.
Qed.

(** *** YAML *)
Lemma yaml_scientific neg l x : proper l -> (-999 < x < 999)%Z ->
  yaml_read (sign_text neg ++ scientific exponent2 l x) = match l with [_] => None | _ => Some (PyFloat (Dec neg l (x + 1))) end.
Proof.
  intros P Hx. destruct (exponent2_ok (Z.abs_nat x) ltac:(lia)) as [Ev En].
  destruct l as [|a rest] eqn:El; [destruct P as [[] _]|]. rewrite <- El in *. unfold yaml_read. rewrite El at 1. cbn [scientific].
  rewrite read_sign_text. set (ex := exponent2 (Z.abs_nat x)) in *. clearbody ex. destruct ex as [|e0 ex]; [contradiction|].
  destruct rest as [|r rest].
  - change (D a :: [] ++ E :: exp_sign x :: ds (e0 :: ex)) with (ds [a] ++ E :: exp_sign x :: ds (e0 :: ex)). rewrite span_ds by exact I. try rewrite El. reflexivity.
  - change (D a :: (Dot :: ds (r :: rest)) ++ E :: exp_sign x :: ds (e0 :: ex)) with (ds [a] ++ Dot :: ds (r :: rest) ++ E :: exp_sign x :: ds (e0 :: ex)).
    rewrite span_ds by exact I. rewrite span_ds by exact I.
    assert (C : canon neg [a] (r :: rest) (exponent_value (exp_sign x) (e0 :: ex)) = Dec neg l (x + 1)).
    { rewrite (canon_of neg [a] (r :: rest) _ 0 0 l P) by (rewrite El; simpl; now rewrite app_nil_r). rewrite exp_value by exact Ev. f_equal. cbn [length]. lia. }
    rewrite span_ds_all. rewrite ?El. rewrite <- El, <- C. unfold exp_sign. destruct (x <? 0)%Z; reflexivity.
Qed.

Lemma yaml_int d : shortest d -> (Z.of_nat (length (d_digits d)) <= d_point d)%Z -> d_digits d <> [] ->
  yaml_read (yaml_text (PyInt d)) = Some (PyInt d).
Proof.
  intros (_ & H1 & H2 & H3) Hw Hn. destruct d as [neg l n]. cbn [d_digits d_neg d_point yaml_text] in *. unfold py_int_text. cbn [d_digits d_neg d_point].
  destruct l as [|c l0] eqn:El; [contradiction|]. rewrite <- El in *. assert (P : proper l) by (split; [rewrite El in *; exact H1|exact H2]).
  assert (Hd : l = c :: l0) by exact El. clear El. assert (M : forall A (u v : A), match l with [] => u | _ :: _ => v end = v) by (intros; now rewrite Hd). rewrite ?M. unfold yaml_read.
  assert (Es : ds (l ++ zeros (n - Z.of_nat (length l))) = D c :: ds (l0 ++ zeros (n - Z.of_nat (length l)))) by (rewrite Hd; reflexivity).
  rewrite Es, read_sign_text, <- Es, span_ds_all. unfold zeros. rewrite plain_proper by exact P.
  rewrite (canon_of neg _ [] 0 0 (Z.to_nat (n - Z.of_nat (length l))) l P) by (simpl; now rewrite app_nil_r).
  rewrite app_length, repeat_length. destruct (l ++ repeat 0 _) as [|z0 zs] eqn:Ez; [rewrite Hd in Ez; discriminate|]. do 3 f_equal. lia.
Qed.
Lemma yaml_float d : shortest d -> yaml_read (yaml_text (PyFloat d)) =
  match d_digits d with
  | [_] => if (d_point d <=? -4)%Z || (16 <? d_point d)%Z then None else Some (PyFloat d)
  | _ => Some (PyFloat d)
  end.
Proof.
  intros (_ & H1 & H2 & H3). destruct d as [neg l n]. cbn [d_digits d_neg d_point yaml_text] in *. unfold py_repr. cbn [d_digits d_neg d_point].
  destruct l as [|c l0] eqn:El; [subst n; now destruct neg|]. rewrite <- El in *. assert (P : proper l) by (split; [rewrite El in *; exact H1|exact H2]).
  assert (Hd : l = c :: l0) by exact El. clear El. assert (M : forall A (u v : A), match l with [] => u | _ :: _ => v end = v) by (intros; now rewrite Hd). rewrite ?M.
  assert (G : forall t, yaml_read (sign_text neg ++ t) = Some (PyFloat (Dec neg l n)) -> yaml_read (sign_text neg ++ t) = match l0 with [] => Some (PyFloat (Dec neg l n)) | _ => Some (PyFloat (Dec neg l n)) end)
    by (intros t ->; now destruct l0).
  destruct ((n <=? -4)%Z || (16 <? n)%Z) eqn:C0.
  - rewrite yaml_scientific by (try exact P; lia). replace (n - 1 + 1)%Z with n by lia. clear - Hd. subst l. now destruct l0.
  - apply G. clear G. apply orb_false_elim in C0. destruct C0 as [C0 C0']. destruct (Z.leb_spec n 0) as [L|L]; [|destruct (Z.leb_spec (Z.of_nat (length l)) n) as [L'|L']].
    + unfold yaml_read. rewrite read_sign_text.
      change (D 0 :: Dot :: ds (zeros (- n) ++ l)) with (ds [0] ++ Dot :: ds (zeros (- n) ++ l)). rewrite span_ds by exact I.
      rewrite span_ds_all, (canon_of neg [0] (zeros (- n) ++ l) 0 (S (Z.to_nat (- n))) 0 l P) by (simpl; unfold zeros; now rewrite app_nil_r). do 3 f_equal. cbn [length]. lia.
    + unfold yaml_read.
      assert (Es : ds (l ++ zeros (n - Z.of_nat (length l))) = D c :: ds (l0 ++ zeros (n - Z.of_nat (length l)))) by (rewrite Hd; reflexivity).
      rewrite Es. cbn [app]. rewrite read_sign_text, app_comm_cons, <- Es, span_ds by exact I.
      destruct (l ++ zeros _) as [|z0 zs] eqn:Ez; [rewrite Hd in Ez; discriminate|]. rewrite <- Ez. change [D 0] with (ds [0]). rewrite span_ds_all.
      rewrite (canon_of neg _ [0] 0 0 (S (Z.to_nat (n - Z.of_nat (length l)))) l P).
      * do 3 f_equal. unfold zeros. rewrite app_length, repeat_length. lia.
      * unfold zeros. cbn [repeat app]. rewrite <- app_assoc. f_equal. change (0 :: repeat 0 (Z.to_nat (n - Z.of_nat (length l)))) with (repeat 0 (S (Z.to_nat (n - Z.of_nat (length l))))).
        now rewrite <- Nat.add_1_r, repeat_app.
    + unfold yaml_read.
      assert (Ef : ds (firstn (Z.to_nat n) l) = D c :: ds (firstn (Z.to_nat n - 1) l0)) by (rewrite Hd; replace (Z.to_nat n) with (S (Z.to_nat n - 1)) at 1 by lia; reflexivity).
      rewrite Ef. cbn [app]. rewrite read_sign_text, app_comm_cons, <- Ef, span_ds by exact I.
      destruct (firstn (Z.to_nat n) l) as [|z0 zs] eqn:Ez; [discriminate|]. rewrite <- Ez.
      rewrite span_ds_all, (canon_of neg _ _ 0 0 0 l P) by (simpl; now rewrite firstn_skipn, app_nil_r). do 3 f_equal. rewrite firstn_length. lia.
Qed.

(** ** Values *)
Lemma dv_snoc l a : digits_value (l ++ [a]) = (10 * digits_value l + Z.of_nat a)%Z.
Proof. unfold digits_value. now rewrite fold_left_app. Qed.
Lemma dv_app_zeros l j : digits_value (l ++ repeat 0 j) = (digits_value l * 10 ^ Z.of_nat j)%Z.
Proof.
  revert l. induction j as [|j IH]; intros l; [simpl; rewrite app_nil_r; lia|].
  change (repeat 0 (S j)) with ([0] ++ repeat 0 j). rewrite app_assoc, IH, dv_snoc, Nat2Z.inj_succ, Z.pow_succ_r by lia. lia.
Qed.
Lemma dv_zeros_app i l : digits_value (repeat 0 i ++ l) = digits_value l.
Proof. unfold digits_value. rewrite fold_left_app. f_equal. induction i; simpl; auto. Qed.
Lemma dv_nonneg l : (0 <= digits_value l)%Z.
Proof. induction l as [|a l IH] using rev_ind; [unfold digits_value; simpl; lia|]. rewrite dv_snoc. lia. Qed.
Lemma dv_upper l : digit_list l -> (digits_value l < 10 ^ Z.of_nat (length l))%Z.
Proof.
  induction l as [|a l IH] using rev_ind; intros H; [unfold digits_value; simpl; lia|]. apply Forall_app in H. destruct H as [H1 H2]. inversion H2; subst.
  specialize (IH H1). rewrite dv_snoc, app_length. simpl length. rewrite Nat.add_1_r, Nat2Z.inj_succ, Z.pow_succ_r by lia. lia.
Qed.
Lemma dv_lower l : match l with [] => False | a :: _ => a <> 0 end -> (10 ^ (Z.of_nat (length l) - 1) <= digits_value l)%Z.
Proof.
  induction l as [|a l IH] using rev_ind; intros H; [destruct H|]. destruct l as [|b l].
  - unfold digits_value. simpl in *. lia.
  - specialize (IH H). rewrite dv_snoc, app_length. change (length [a]) with 1. rewrite Nat.add_1_r, Nat2Z.inj_succ.
    replace (Z.succ (Z.of_nat (length (b :: l))) - 1)%Z with (Z.succ (Z.of_nat (length (b :: l)) - 1)) by lia.
    rewrite Z.pow_succ_r by (simpl length; lia). lia.
Qed.

Lemma powerRZ_nat n : (0 <= n)%Z -> powerRZ 10 n = IZR (10 ^ n).
Proof.
  intros H. rewrite <- (Z2Nat.id n H). generalize (Z.to_nat n) as m. clear. intros m. induction m as [|m IH]; [reflexivity|].
  rewrite Nat2Z.inj_succ, Z.pow_succ_r, <- Z.add_1_r, powerRZ_add, IH, mult_IZR by (try lra; lia). simpl powerRZ. lra.
Qed.
Lemma ten0 : (10 <> 0)%R. Proof. lra. Qed.
Lemma sign_sq neg : (sign_value neg * sign_value neg = 1)%R.
Proof. destruct neg; simpl; lra. Qed.
Lemma int_value_eq d : (Z.of_nat (length (d_digits d)) <= d_point d)%Z -> IZR (int_value d) = value d.
Proof.
  intros H. unfold int_value, value. rewrite powerRZ_nat by lia. rewrite !mult_IZR. unfold sign_value. now destruct (d_neg d).
Qed.

(** The number that is read is the number that is written. *)
Lemma strip_split l : exists i, l = repeat 0 i ++ strip l.
Proof. induction l as [|[|a] l [i IH]]; [now exists 0| |now exists 0]. exists (S i). simpl. now rewrite <- IH. Qed.
Lemma strip_end_split l : exists j, l = strip_end l ++ repeat 0 j.
Proof. destruct (strip_split (rev l)) as (j & E). exists j. unfold strip_end. rewrite <- (rev_involutive l), E at 1. now rewrite rev_app_distr, rev_repeat. Qed.
Theorem C144_reading : forall neg a b x,
  value (canon neg a b x) = (sign_value neg * IZR (digits_value (a ++ b)) * powerRZ 10 (x - Z.of_nat (length b)))%R.
Proof.
  intros neg a b x. destruct (strip_split (a ++ b)) as (i & Ei). destruct (strip_end_split (strip (a ++ b))) as (j & Ej).
  unfold canon. set (l := strip (a ++ b)) in *. set (m := strip_end l) in *.
  assert (V : digits_value (a ++ b) = (digits_value m * 10 ^ Z.of_nat j)%Z) by (rewrite Ei, dv_zeros_app, Ej; apply dv_app_zeros).
  assert (L1 : length (a ++ b) = i + length l) by (rewrite Ei at 1; now rewrite app_length, repeat_length).
  assert (L2 : length l = length m + j) by (rewrite Ej at 1; now rewrite app_length, repeat_length).
  rewrite app_length in *. rewrite V, mult_IZR, <- powerRZ_nat by lia. destruct m as [|c m'] eqn:Em.
  - unfold value, digits_value. simpl. lra.
  - rewrite <- Em in *. unfold value. cbn [d_neg d_digits d_point].
    replace (Z.of_nat (length a) + x - (Z.of_nat (length a + length b) - Z.of_nat (length l)) - Z.of_nat (length m))%Z with (Z.of_nat j + (x - Z.of_nat (length b)))%Z by lia.
    rewrite powerRZ_add by exact ten0. ring.
Qed.
Print Assumptions C144_reading.

Lemma whole_iff d : shortest d -> d_digits d <> [] -> (exists z, value d = IZR z) <-> (Z.of_nat (length (d_digits d)) <= d_point d)%Z.
Proof.
  intros (Hd & _ & Hl & _) Hn. split; [|intros H; exists (int_value d); symmetry; now apply int_value_eq].
  intros (z & E). destruct (Z.le_gt_cases (Z.of_nat (length (d_digits d))) (d_point d)) as [|G]; [assumption|exfalso].
  destruct d as [neg l n]. cbn [d_digits d_point d_neg] in *. unfold value in E. cbn [d_digits d_point d_neg] in E.
  set (k := (Z.of_nat (length l) - n)%Z) in *. replace (n - Z.of_nat (length l))%Z with (- k)%Z in E by lia.
  assert (E2 : (digits_value l = (if neg then -1 else 1) * z * 10 ^ k)%Z).
  { apply eq_IZR. rewrite !mult_IZR, <- (powerRZ_nat k), <- E by lia.
    assert (P : (powerRZ 10 (- k) * powerRZ 10 k = 1)%R) by (rewrite <- powerRZ_add by exact ten0; replace (- k + k)%Z with 0%Z by lia; reflexivity).
    pose proof (sign_sq neg) as S2. assert (Sg : IZR (if neg then -1 else 1) = sign_value neg) by now destruct neg. rewrite Sg.
    transitivity ((sign_value neg * sign_value neg) * IZR (digits_value l) * (powerRZ 10 (- k) * powerRZ 10 k))%R; [rewrite S2, P; ring|ring]. }
  destruct l as [|a l] using rev_ind; [contradiction|]. rewrite last_last in Hl. rewrite dv_snoc in E2. apply Forall_app in Hd. destruct Hd as [_ Hd]. inversion Hd; subst.
  replace k with (Z.succ (k - 1)) in E2 by lia. rewrite Z.pow_succ_r in E2 by lia.
  set (q := ((if neg then -1 else 1) * z * 10 ^ (k - 1))%Z). assert ((10 * digits_value l + Z.of_nat a = 10 * q)%Z) by (unfold q; lia). lia.
Qed.
Lemma value_bounds d : shortest d -> d_digits d <> [] -> (powerRZ 10 (d_point d - 1) <= Rabs (value d) < powerRZ 10 (d_point d))%R.
Proof.
  intros (Hd & Hf & Hl & _) Hn. destruct d as [neg l n]. cbn [d_digits d_point d_neg] in *. unfold value. cbn [d_digits d_point d_neg].
  assert (Hf' : match l with [] => False | a :: _ => a <> 0 end) by (destruct l; [contradiction|exact Hf]).
  pose proof (dv_upper l Hd) as U. pose proof (dv_lower l Hf') as L. pose proof (dv_nonneg l).
  assert (P : (0 < powerRZ 10 (n - Z.of_nat (length l)))%R) by (apply powerRZ_lt; lra).
  rewrite !Rabs_mult, (Rabs_right (powerRZ _ _)) by lra. rewrite (Rabs_right (IZR (digits_value l))) by (apply Rle_ge, IZR_le; lia).
  replace (Rabs (sign_value neg)) with 1%R by (destruct neg; simpl; [rewrite Rabs_left; lra|rewrite Rabs_right; lra]).
  assert (1 <= Z.of_nat (length l))%Z by (destruct l; [contradiction|simpl length; lia]).
  replace (n - 1)%Z with ((Z.of_nat (length l) - 1) + (n - Z.of_nat (length l)))%Z by lia. rewrite powerRZ_add by exact ten0.
  replace (powerRZ 10 n) with (powerRZ 10 (Z.of_nat (length l)) * powerRZ 10 (n - Z.of_nat (length l)))%R by (rewrite <- powerRZ_add by exact ten0; f_equal; lia).
  rewrite (powerRZ_nat (Z.of_nat (length l) - 1)), (powerRZ_nat (Z.of_nat (length l))) by lia. apply IZR_le in L. apply IZR_lt in U. split; [rewrite Rmult_1_l; apply Rmult_le_compat_r; lra|rewrite Rmult_1_l; apply Rmult_lt_compat_r; lra].
Qed.

(** ** C144 *)
(** A number typed in the page is the number of the scene, unless it has one significant digit
    and is smaller than 0.0001 or at least 1e21.  It is an int exactly if it is whole (below
    1e21). *)
Theorem C144_number_arrives_partial : forall d, shortest d ->
  (d_digits d = [] \/ 2 <= length (d_digits d) \/ (-3 <= d_point d <= 21)%Z) ->
  exists n, arrives d = Some n /\ num n = value d /\
    ((exists z, n = Int z) <-> (d_point d <= 21)%Z /\ exists z, value d = IZR z).
Proof.
  intros d Hs Hc. unfold arrives. rewrite json_back by exact Hs. destruct (d_digits d) as [|c l] eqn:El.
  - exists (Int 0). split; [reflexivity|]. assert (V : value d = 0%R) by (unfold value; rewrite El; unfold digits_value; simpl; lra).
    split; [now rewrite V|]. destruct Hs as (_ & Hp & _). rewrite El in Hp. rewrite Hp, V. split; [intros _; split; [lia|now exists 0%Z]|intros _; now exists 0%Z].
  - assert (Hn : d_digits d <> []) by (rewrite El; discriminate). pose proof (whole_iff d Hs Hn) as W. unfold whole. rewrite <- El in *.
    destruct ((Z.of_nat (length (d_digits d)) <=? d_point d)%Z && (d_point d <=? 21)%Z) eqn:C.
    + apply andb_prop in C. destruct C as [C1 C2]. apply Z.leb_le in C1, C2. rewrite yaml_int by assumption. cbn [option_map number_of].
      exists (Int (int_value d)). split; [reflexivity|]. split; [now apply int_value_eq|]. split; [intros _; split; [exact C2|now apply W]|intros _; now exists (int_value d)].
    + rewrite yaml_float by exact Hs. exists (Float (value d)). split; [|split; [reflexivity|split; [intros [z Ez]; discriminate|]]].
      * destruct (d_digits d) as [|c' [|c'' l']] eqn:El'; try reflexivity. destruct Hc as [Hc|[Hc|Hc]]; [discriminate|simpl in Hc; lia|].
        assert (d_point d < 1 \/ 21 < d_point d)%Z by (apply andb_false_iff in C; destruct C as [C|C]; apply Z.leb_gt in C; simpl in C; lia).
        rewrite (proj2 (Z.leb_gt _ _)), (proj2 (Z.ltb_ge _ _)) by lia. reflexivity.
      * intros [P Hz]. apply W in Hz. apply andb_false_iff in C. destruct C as [C|C]; apply Z.leb_gt in C; lia.
Qed.
Print Assumptions C144_number_arrives_partial.

(** In terms of its size: every number from 0.0001 to 1e21 arrives. *)
Theorem C144_ordinary_numbers_partial : forall d, shortest d -> (/ 10 ^ 4 <= Rabs (value d) < 10 ^ 21)%R ->
  exists n, arrives d = Some n /\ num n = value d.
Proof.
  intros d Hs [H1 H2]. destruct (C144_number_arrives_partial d Hs) as (n & A & B & _); [|now exists n].
  destruct (d_digits d) as [|c l] eqn:El; [now left|]. right. right. assert (Hn : d_digits d <> []) by (rewrite El; discriminate).
  destruct (value_bounds d Hs Hn) as [L U].
  assert (M : forall a b, (a <= b)%Z -> (powerRZ 10 a <= powerRZ 10 b)%R).
  { intros a b Hab. replace b with (a + (b - a))%Z by lia. rewrite powerRZ_add by exact ten0. rewrite <- (Rmult_1_r (powerRZ 10 a)) at 1.
    apply Rmult_le_compat_l; [apply powerRZ_le; lra|]. rewrite powerRZ_nat by lia. apply (IZR_le 1). pose proof (Z.pow_pos_nonneg 10 (b - a) ltac:(lia) ltac:(lia)). lia. }
  split.
  - destruct (Z.le_gt_cases (-3) (d_point d)) as [|G]; [assumption|]. pose proof (M (d_point d) (-4)%Z ltac:(lia)) as K. exfalso.
    replace (powerRZ 10 (-4)) with (/ 10 ^ 4)%R in K by (simpl; lra). lra.
  - destruct (Z.le_gt_cases (d_point d) 21) as [|G]; [assumption|]. pose proof (M 21%Z (d_point d - 1)%Z ltac:(lia)) as K. exfalso.
    replace (powerRZ 10 21) with (10 ^ 21)%R in K by (rewrite powerRZ_nat by lia; rewrite pow_IZR; reflexivity). lra.
Qed.
Print Assumptions C144_ordinary_numbers_partial.

(** One digit below 0.0001: the document has a string in its place and is refused. *)
Theorem C144_small_number_refuted : exists d, shortest d /\ value d = (5 / 100000)%R /\ arrives d = None.
Proof.
  exists (Dec false [5] (-4)). split; [|split; [|reflexivity]].
  - repeat split; simpl; try lia. repeat constructor; lia.
  - unfold value, digits_value. simpl. lra.
Qed.
Print Assumptions C144_small_number_refuted.
(** This is so for all such numbers. *)
Theorem C144_refused : forall d, shortest d -> (exists n, arrives d = Some n) ->
  d_digits d = [] \/ 2 <= length (d_digits d) \/ (-3 <= d_point d <= 21)%Z.
Proof.
  intros d Hs (n & A). unfold arrives in A. rewrite json_back in A by exact Hs. destruct (d_digits d) as [|c l] eqn:El; [now left|]. right.
  destruct l as [|c' l]; [right|left; simpl; lia]. unfold whole in A. rewrite El in A. cbn [length] in A.
  destruct ((Z.of_nat 1 <=? d_point d)%Z && (d_point d <=? 21)%Z) eqn:C; [apply andb_prop in C; destruct C as [C1 C2]; apply Z.leb_le in C1, C2; lia|].
  rewrite yaml_float, El in A by exact Hs. destruct ((d_point d <=? -4)%Z || (16 <? d_point d)%Z) eqn:B; [discriminate|].
  apply orb_false_elim in B. destruct B as [B1 B2]. apply Z.leb_gt in B1. apply Z.ltb_ge in B2. lia.
Qed.
Print Assumptions C144_refused.

(** The coordinates written by a move: the same with floats. *)
Theorem C144_moved_partial : forall d, shortest d ->
  ((exists n, float_arrives d = Some n) <-> d_digits d = [] \/ 2 <= length (d_digits d) \/ (-3 <= d_point d <= 16)%Z) /\
  forall n, float_arrives d = Some n -> n = Float (value d).
Proof.
  intros d Hs. unfold float_arrives. rewrite yaml_float by exact Hs. destruct (d_digits d) as [|c [|c' l]] eqn:El; cbn [option_map number_of].
  - split; [split; [intros _; now left|intros _; eexists; reflexivity]|intros n [= <-]; reflexivity].
  - destruct ((d_point d <=? -4)%Z || (16 <? d_point d)%Z) eqn:B; cbn [option_map number_of].
    + split; [|discriminate]. split; [intros (n & E); discriminate|]. intros [E|[E|E]]; [discriminate|simpl in E; lia|]. apply orb_prop in B. destruct B as [B|B]; [apply Z.leb_le in B|apply Z.ltb_lt in B]; lia.
    + split; [|intros n [= <-]; reflexivity]. apply orb_false_elim in B. destruct B as [B1 B2]. apply Z.leb_gt in B1. apply Z.ltb_ge in B2.
      split; [intros _; right; right; lia|intros _; eexists; reflexivity].
  - split; [split; [intros _; right; left; simpl; lia|intros _; eexists; reflexivity]|intros n [= <-]; reflexivity].
Qed.
Print Assumptions C144_moved_partial.
(** A node cannot be dropped at a coordinate of 0.00001. *)
Theorem C144_moved_refuted : exists d, shortest d /\ value d = (1 / 100000)%R /\ float_arrives d = None.
Proof.
  exists (Dec false [1] (-4)). split; [|split; [|reflexivity]].
  - repeat split; simpl; try lia. repeat constructor; lia.
  - unfold value, digits_value. simpl. lra.
Qed.
Print Assumptions C144_moved_refuted.

(** A whole number typed as the coefficient of an absorber arrives as an int, for which the
    component has no coefficient. *)
Theorem C144_coefficient_refuted : exists d n c, shortest d /\ (0 < value d)%R /\ arrives d = Some n /\
  parse_component (CAbsorber (AbsSpec (Some n) false None)) = Some c /\ pc_abs c = NoDistribution.
Proof.
  exists (Dec false [2] 1). do 2 eexists. split; [repeat split; simpl; try lia; repeat constructor; lia|].
  split; [unfold value, digits_value; simpl; lra|]. split; [reflexivity|].
  cbn [parse_component parse_absorber as_spectrum as_coefficient as_hist]. unfold parse_absorber, build. cbn [as_spectrum as_coefficient as_hist].
  unfold truthy. cbn [number_of num]. unfold int_value, digits_value. simpl IZR.
  destruct (Reqb_spec 2 0); [lra|]. cbn [negb]. split; reflexivity.
Qed.
Print Assumptions C144_coefficient_refuted.
Theorem C144_coefficient_partial : forall d n hist, shortest d -> arrives d = Some n -> (0 < value d)%R ->
  ((forall z, value d <> IZR z) -> exists c, parse_component (CAbsorber (AbsSpec (Some n) hist None)) = Some c /\ pc_abs c = BuiltConst (value d)) /\
  forall a, build (Some n) hist (Some a) = build (Some (Float (value d))) hist (Some a).
Proof.
  intros d n hist Hs A V. destruct (C144_number_arrives_partial d Hs (C144_refused d Hs (ex_intro _ n A))) as (n' & A' & Nv & Iz).
  rewrite A in A'. injection A' as <-.
  assert (T : truthy n = true) by (unfold truthy; rewrite Nv; destruct (Reqb_spec (value d) 0); [lra|reflexivity]).
  assert (T' : truthy (Float (value d)) = true) by (unfold truthy; cbn [num]; destruct (Reqb_spec (value d) 0); [lra|reflexivity]).
  split.
  - intros Nz. destruct n as [z|x]; [exfalso; destruct (proj1 Iz) as [_ (z' & Ez)]; [now exists z|now apply (Nz z')]|]. cbn [num] in Nv. subst x.
    cbn [parse_component]. unfold parse_absorber, build. cbn [as_spectrum as_coefficient as_hist]. rewrite T. eexists. split; reflexivity.
  - intros a. unfold build. rewrite T, T'. cbn [num]. now rewrite Nv.
Qed.
Print Assumptions C144_coefficient_partial.

Example C144_example : let d := Dec true [1; 2; 5] 2 in shortest d /\ value d = (-125 / 10)%R /\
  js_text d = [Minus; D 1; D 2; Dot; D 5] /\ arrives d = Some (Float (value d)) /\
  py_repr (Dec false [1; 2] (-4)) = [D 1; Dot; D 2; E; Minus; D 0; D 5] /\ arrives (Dec false [1; 2] (-4)) = Some (Float (value (Dec false [1; 2] (-4)))) /\
  js_text (Dec false [5] (-4)) = [D 0; Dot; D 0; D 0; D 0; D 0; D 5] /\ py_repr (Dec false [5] (-4)) = [D 5; E; Minus; D 0; D 5] /\
  arrives (Dec false [3] 3) = Some (Int 300).
Proof.
  repeat split; try reflexivity; simpl; try lia; try (repeat constructor; lia). unfold value, digits_value. simpl. lra.
Qed.

(** *** The characters *)
(** What is written consists of characters: every digit is one of 0 to 9. *)
Definition is_char (c : char) : Prop := match c with D n => n < 10 | _ => True end.
Ltac digs := repeat (apply Forall_cons; [try exact I; try (cbn; lia)|]); try apply Forall_nil.
Lemma is_char_ds l : digit_list l -> Forall is_char (ds l).
Proof. intros H. apply Forall_map. exact H. Qed.
Lemma zeros_digits n : digit_list (zeros n).
Proof. apply Forall_forall. intros x H. apply repeat_spec in H. lia. Qed.
Lemma exponent_digits n : n < 1000 -> digit_list (exponent n).
Proof.
  intros H. unfold exponent, digit_list. destruct (Nat.ltb_spec n 10); [digs|].
  assert (M : forall k, k mod 10 < 10) by (intros k; apply Nat.mod_upper_bound; lia).
  destruct (Nat.ltb_spec n 100); (repeat (apply Forall_cons; [first [apply M|apply Nat.div_lt_upper_bound; lia]|])); apply Forall_nil.
Qed.
Lemma exponent2_digits n : n < 1000 -> digit_list (exponent2 n).
Proof.
  intros H. unfold exponent2. destruct (Nat.ltb_spec n 10); [digs|now apply exponent_digits].
Qed.
Lemma scientific_is_char pad l x : digit_list l -> digit_list (pad (Z.abs_nat x)) -> Forall is_char (scientific pad l x).
Proof.
  intros H P. destruct l as [|a r]; cbn [scientific]; [constructor|]. inversion H as [|? ? Ha Hr]. subst.
  constructor; [exact Ha|]. apply Forall_app. split.
  - destruct r; [constructor|]. constructor; [exact I|]. now apply is_char_ds.
  - constructor; [exact I|]. constructor; [unfold exp_sign; destruct (x <? 0)%Z; exact I|]. now apply is_char_ds.
Qed.
Lemma digits_part (k : nat) l : digit_list l -> digit_list (firstn k l) /\ digit_list (skipn k l).
Proof. intros H. apply Forall_app. unfold digit_list. now rewrite firstn_skipn. Qed.
Theorem C144_characters : forall d, shortest d -> Forall is_char (js_text d) /\ Forall is_char (py_repr d).
Proof.
  intros d (H & _ & _ & B). destruct (digits_part (Z.to_nat (d_point d)) _ H) as [F S].
  assert (X : Z.abs_nat (d_point d - 1) < 1000) by lia.
  assert (Z1 : forall n, digit_list (d_digits d ++ zeros n)) by (intros n; apply Forall_app; split; [exact H|apply zeros_digits]).
  assert (Z2 : forall n, digit_list (zeros n ++ d_digits d)) by (intros n; apply Forall_app; split; [apply zeros_digits|exact H]).
  assert (S0 : Forall is_char (sign_text (d_neg d))) by (destruct (d_neg d); repeat constructor).
  assert (P0 : is_char (D 0)) by (cbn; lia).
  unfold js_text, py_repr. split.
  - destruct (d_digits d) as [|c l] eqn:El; [digs|]. rewrite <- El in *. apply Forall_app. split; [exact S0|].
    destruct (_ && _); [now apply is_char_ds|]. destruct (_ && _); [|destruct (_ && _)].
    + apply Forall_app. split; [now apply is_char_ds|]. constructor; [exact I|]. now apply is_char_ds.
    + constructor; [exact P0|]. constructor; [exact I|]. now apply is_char_ds.
    + apply scientific_is_char; [exact H|]. now apply exponent_digits.
  - apply Forall_app. split; [exact S0|]. destruct (d_digits d) as [|c l] eqn:El; [digs|]. rewrite <- El in *.
    destruct (_ || _); [apply scientific_is_char; [exact H|now apply exponent2_digits]|]. destruct (_ <=? _)%Z; [|destruct (_ <=? _)%Z].
    + constructor; [exact P0|]. constructor; [exact I|]. now apply is_char_ds.
    + apply Forall_app. split; [now apply is_char_ds|]. digs.
    + apply Forall_app. split; [now apply is_char_ds|]. constructor; [exact I|]. now apply is_char_ds.
Qed.
Print Assumptions C144_characters.
(** A number written by hand with a plus sign is the same number to PyYAML; JSON has no such numbers. *)
Theorem C144_plus : forall n t, yaml_read (Plus :: D n :: t) = yaml_read (D n :: t) /\ json_read (Plus :: D n :: t) = None.
Proof. intros n t. split; reflexivity. Qed.
Print Assumptions C144_plus.
Example C144_characters_example : shortest (Dec false [1; 7] (-299)) /\
  py_repr (Dec false [1; 7] (-299)) = [D 1; Dot; D 7; E; Minus; D 3; D 0; D 0] /\
  yaml_read [Plus; D 4; D 2] = Some (PyInt (Dec false [4; 2] 2)).
Proof. split; [|split; reflexivity]. repeat split; simpl; try lia. digs. Qed.
