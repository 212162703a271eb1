From Coq Require Import Reals Lra Psatz ZArith List Bool Arith Lia Permutation.
From Verif Require Import Base Interp DistModel DistSpec DistProofs MaterialModel MaterialSpec.
Import ListNotations.
Open Scope R_scope.

Lemma from_nat_length k n : length (from_nat k n) = n.
Proof. revert k; induction n; simpl; auto. Qed.
Lemma from_nat_nth k n i d : (i < n)%nat -> nth i (from_nat k n) d = INR (k + i).
Proof.
  revert k i. induction n as [|n IH]; intros k i H; [lia|].
  destruct i; cbn [from_nat nth]; [now rewrite Nat.add_0_r|].
  rewrite IH by lia. f_equal. lia.
Qed.
Lemma combine_nth_eq {A B} (l : list A) (m : list B) i a b :
  length l = length m -> nth i (combine l m) (a, b) = (nth i l a, nth i m b).
Proof. intros. now apply combine_nth. Qed.

Lemma floor_nat_between x k : INR k <= x -> x < INR (S k) -> floor_nat x = k.
Proof.
  intros H1 H2. unfold floor_nat.
  assert (E : Int_part x = Z.of_nat k).
  { destruct (base_Int_part x) as [B1 B2]. rewrite S_INR in H2. rewrite INR_IZR_INZ in H1, H2.
    assert (A1 : IZR (Int_part x) < IZR (Z.of_nat k + 1)) by (rewrite plus_IZR; lra).
    assert (A2 : IZR (Z.of_nat k) < IZR (Int_part x + 1)) by (rewrite plus_IZR; lra).
    apply lt_IZR in A1, A2. lia. }
  rewrite E. apply Nat2Z.id.
Qed.

Lemma psum_S coefs i : (i < length coefs)%nat -> psum coefs (S i) = psum coefs i + nth i coefs 0.
Proof.
  unfold psum. revert i. induction coefs as [|a r IH]; intros i H; simpl in H; [lia|].
  destruct i; [unfold rsum; destruct r; simpl; lra|].
  change (firstn (S (S i)) (a :: r)) with (a :: firstn (S i) r).
  change (firstn (S i) (a :: r)) with (a :: firstn i r).
  change (nth (S i) (a :: r) 0) with (nth i r 0).
  specialize (IH i ltac:(lia)).
  change (rsum (a :: firstn (S i) r)) with (a + rsum (firstn (S i) r)).
  change (rsum (a :: firstn i r)) with (a + rsum (firstn i r)). lra.
Qed.

Lemma psum_mono coefs : Forall (fun c => 0 <= c) coefs -> forall i j, (i <= j)%nat -> psum coefs i <= psum coefs j.
Proof. intros H i j Hij. apply rsum_le_all; auto. Qed.

Lemma psum_all coefs : psum coefs (length coefs) = rsum coefs.
Proof. unfold psum. now rewrite firstn_all. Qed.

Section Select.
  Variable coefs : list R.
  Hypothesis Hpos : Forall (fun c => 0 <= c) coefs.
  Hypothesis Htot : 0 < rsum coefs.

  Let pdf : list R := 0 :: map (fun v => v / rsum coefs) (cumsum coefs).
  Let ks := combine pdf (from_nat 0 (S (length coefs))).

  Lemma pdf_length : length pdf = S (length coefs).
  Proof. unfold pdf. simpl. rewrite map_length. unfold cumsum. now rewrite cumsum_from_length. Qed.

  Lemma pdf_nth i : (i <= length coefs)%nat -> nth i pdf 0 = psum coefs i / rsum coefs.
  Proof.
    intros H. unfold pdf. destruct i.
    - unfold psum, rsum at 1. simpl. field. lra.
    - change (nth i (map (fun v => v / rsum coefs) (cumsum coefs)) 0 = psum coefs (S i) / rsum coefs).
      rewrite (nth_indep _ 0 ((fun v => v / rsum coefs) 0)).
      2:{ rewrite map_length. unfold cumsum. rewrite cumsum_from_length. lia. }
      rewrite (map_nth (fun v => v / rsum coefs)). unfold cumsum.
      rewrite cumsum_from_nth by lia. unfold psum. field. lra.
  Qed.

  Lemma ks_nth i : (i <= length coefs)%nat -> nth i ks (0, 0) = (psum coefs i / rsum coefs, INR i).
  Proof.
    intros H. unfold ks. rewrite combine_nth_eq by (rewrite pdf_length, from_nat_length; reflexivity).
    rewrite pdf_nth by assumption. rewrite from_nat_nth by lia. reflexivity.
  Qed.

  Lemma select_unfold u :
    select_component coefs u =
      match np_interp ks u with Some v => Some (floor_nat v) | None => None end.
  Proof.
    unfold select_component.
    assert (Hex : existsb (fun c => Rltb c 0) coefs = false).
    { clear -Hpos. induction Hpos; simpl; auto. rltb_f x 0. auto. }
    rewrite Hex. unfold ks, pdf.
    pose proof (cumsum_from_last 0 coefs) as Hlast. rewrite Rplus_0_l in Hlast.
    pose proof (cumsum_from_nondec 0 _ Hpos) as Hnd.
    unfold cumsum. destruct (cumsum_from 0 coefs) as [|c0 cr] eqn:Ec; [simpl in Hlast; lra|].
    rewrite last_cons_default in Hlast.
    assert (Hnd' : nondecreasing (c0 :: cr)) by (destruct Hnd; assumption).
    rewrite (np_max_nondec _ _ Hnd'), Hlast.
    destruct (Reqb_spec (rsum coefs) 0); [lra|]. reflexivity.
  Qed.

  Lemma ks_split : exists k0 r, ks = k0 :: r /\ length r = length coefs /\ k0 = (0, 0) /\
     last r k0 = (1, INR (length coefs)) /\ chain x_nondec k0 r.
  Proof.
    assert (Hlen : length ks = S (length coefs)).
    { unfold ks. rewrite combine_length, pdf_length, from_nat_length. lia. }
    destruct ks as [|k0 r] eqn:E; [discriminate|]. exists k0, r.
    assert (Hr : length r = length coefs) by (simpl in Hlen; lia).
    assert (Hk0 : k0 = (0, 0)).
    { pose proof (ks_nth 0 ltac:(lia)) as H. rewrite E in H. simpl in H. rewrite H.
      unfold psum, rsum at 1. simpl. f_equal. field. lra. }
    split; [reflexivity|]. split; [exact Hr|]. split; [exact Hk0|]. split.
    - rewrite last_nth_knots, Hr, <- E, ks_nth by lia. rewrite psum_all. f_equal. field. lra.
    - assert (Hgen : forall j l a, (forall i, (i < length l)%nat -> nth i (a :: l) (0,0) = (psum coefs (j + i) / rsum coefs, INR (j + i)) /\
          nth (S i) (a :: l) (0,0) = (psum coefs (j + S i) / rsum coefs, INR (j + S i))) -> chain x_nondec a l).
      { intros j l. revert j. induction l as [|b l IH]; intros j a H; [exact I|]. split.
        - destruct (H 0%nat ltac:(simpl; lia)) as [H1 H2]. simpl in H1, H2. rewrite H1, H2. unfold x_nondec. simpl.
          apply Rmult_le_compat_r; [left; now apply Rinv_0_lt_compat|]. apply psum_mono; auto. lia.
        - apply (IH (S j)). intros i Hi. destruct (H (S i) ltac:(simpl; lia)) as [H1 H2].
          change (nth (S i) (a :: b :: l) (0,0)) with (nth i (b :: l) (0,0)) in H1.
          change (nth (S (S i)) (a :: b :: l) (0,0)) with (nth (S i) (b :: l) (0,0)) in H2.
          rewrite H1, H2. replace (j + S i)%nat with (S j + i)%nat by lia.
          replace (j + S (S i))%nat with (S j + S i)%nat by lia. auto. }
      apply (Hgen 0%nat). intros i Hi. rewrite <- E. rewrite !ks_nth by lia. auto.
  Qed.

  Lemma segment_exists u : 0 <= u -> u < 1 ->
    exists i, (i < length coefs)%nat /\ psum coefs i / rsum coefs <= u /\ u < psum coefs (S i) / rsum coefs.
  Proof.
    intros H0 H1.
    assert (Hall : psum coefs (length coefs) / rsum coefs = 1) by (rewrite psum_all; field; lra).
    assert (Hz : psum coefs 0 / rsum coefs = 0) by (unfold psum, rsum at 1; simpl; field; lra).
    assert (Hgen : forall n, (n <= length coefs)%nat -> u < psum coefs n / rsum coefs ->
       exists i, (i < n)%nat /\ psum coefs i / rsum coefs <= u /\ u < psum coefs (S i) / rsum coefs).
    { induction n as [|n IH]; intros Hn Hu; [lra|].
      destruct (Rle_dec (psum coefs n / rsum coefs) u) as [Hle|Hgt].
      - exists n. auto.
      - destruct (IH ltac:(lia) ltac:(lra)) as (i & Hi & H). exists i. split; [lia|exact H]. }
    destruct (Hgen (length coefs) (Nat.le_refl _)) as (i & Hi & H); [lra|]. exists i. auto.
  Qed.

  Lemma select_segment u i : 0 <= u -> u < 1 -> (i < length coefs)%nat ->
    psum coefs i / rsum coefs <= u -> u < psum coefs (S i) / rsum coefs ->
    select_component coefs u = Some i.
  Proof.
    intros H0 H1 Hi Hlo Hhi. rewrite select_unfold.
    destruct ks_split as (k0 & r & E & Hr & Hk0 & Hlast & Hch).
    rewrite E. cbn [np_interp]. rewrite last_cons_default, Hlast, Hk0. cbn [fst].
    rltb_f u 0. rltb_f 1 u. f_equal. rewrite <- Hk0.
    pose proof (ks_nth i ltac:(lia)) as Hn1. pose proof (ks_nth (S i) ltac:(lia)) as Hn2.
    rewrite E in Hn1, Hn2.
    rewrite (interp_from_index k0 r u i Hch); [|lia|rewrite Hn1; simpl; lra|rewrite Hn2; simpl; lra].
    rewrite Hn1, Hn2. cbn [fst snd].
    pose proof (lerp_bounds (INR i) (INR (S i)) (psum coefs i / rsum coefs) (psum coefs (S i) / rsum coefs) u Hlo Hhi) as Hb.
    pose proof (lerp_strict_upper (INR i) (INR (S i)) (psum coefs i / rsum coefs) (psum coefs (S i) / rsum coefs) u Hlo Hhi) as Hb'.
    rewrite S_INR in *. apply floor_nat_between; [lra|]. rewrite S_INR. lra.
  Qed.

  Lemma select_iff u i : 0 <= u -> u < 1 ->
    (select_component coefs u = Some i <->
     (i < length coefs)%nat /\ psum coefs i / rsum coefs <= u < psum coefs (S i) / rsum coefs).
  Proof.
    intros H0 H1. split.
    - intros H. destruct (segment_exists u H0 H1) as (j & Hj & Hlo & Hhi).
      rewrite (select_segment u j) in H by auto. inversion H; subst. auto.
    - intros (Hi & Hlo & Hhi). now apply select_segment.
  Qed.
End Select.

(** Kernel selection *)
Lemma k_select_from_spec coefs target k running i :
  k_select_from k running target coefs = Some i ->
  exists j, (i = k + j)%nat /\ (j < length coefs)%nat /\
    target <= running + psum coefs (S j) /\
    (forall j', (j' < j)%nat -> running + psum coefs (S j') < target).
Proof.
  revert k running. induction coefs as [|a r IH]; intros k running H; simpl in H; [discriminate|].
  destruct (Rleb_spec target (running + a)).
  - inversion H; subst. exists 0%nat. split; [lia|]. split; [simpl; lia|].
    split; [unfold psum, rsum; destruct r; simpl; lra|intros; lia].
  - apply IH in H as (j & -> & Hj & H1 & H2). exists (S j). split; [lia|]. split; [simpl; lia|].
    assert (Hp : forall m, psum (a :: r) (S m) = a + psum r m) by (intros; unfold psum, rsum; reflexivity).
    split; [rewrite Hp; lra|]. intros j' Hj'. rewrite Hp. destruct j'.
    + unfold psum, rsum; simpl. lra.
    + specialize (H2 j' ltac:(lia)). lra.
Qed.

Lemma k_select_from_some coefs target k running :
  coefs <> [] -> target <= running + rsum coefs -> Forall (fun c => 0 <= c) coefs ->
  exists i, k_select_from k running target coefs = Some i.
Proof.
  revert k running. induction coefs as [|a r IH]; intros k running Hne Ht Hp; [congruence|].
  simpl. destruct (Rleb_spec target (running + a)); [eauto|].
  inversion Hp; subst. destruct r as [|b r].
  - unfold rsum in Ht; simpl in Ht. lra.
  - apply IH; auto; [discriminate|]. unfold rsum in *; simpl in *. lra.
Qed.

Lemma k_select_spec coefs u :
  Forall (fun c => 0 <= c) coefs -> 0 < rsum coefs -> 0 < u < 1 ->
  let i := k_select coefs u in
  (i < length coefs)%nat /\ psum coefs i < u * rsum coefs <= psum coefs (S i).
Proof.
  intros Hp Ht Hu. unfold k_select.
  assert (Hne : coefs <> []) by (intros ->; unfold rsum in Ht; simpl in Ht; lra).
  destruct (k_select_from_some coefs (u * rsum coefs) 0 0 Hne) as (i & E); auto; [nra|].
  rewrite E. apply k_select_from_spec in E as (j & -> & Hj & H1 & H2). simpl.
  split; [exact Hj|]. rewrite Rplus_0_l in H1. split; [|exact H1].
  destruct j; [unfold psum, rsum; simpl; unfold rsum in Ht; nra|].
  specialize (H2 j ltac:(lia)). lra.
Qed.

(** Beer-Lambert *)
Lemma depth_lt alpha u D : 0 < alpha -> 0 <= u < 1 ->
  (- ln (1 - u) / alpha < D <-> u < 1 - exp (- alpha * D)).
Proof.
  intros Ha Hu. split; intros H.
  - assert (Hln : - alpha * D < ln (1 - u)).
    { apply (Rmult_lt_compat_r alpha) in H; auto. unfold Rdiv in H.
      rewrite Rmult_assoc, Rinv_l, Rmult_1_r in H by lra. lra. }
    assert (exp (- alpha * D) < exp (ln (1 - u))) by now apply exp_increasing.
    rewrite exp_ln in H0 by lra. lra.
  - assert (Hln : - alpha * D < ln (1 - u)).
    { rewrite <- (ln_exp (- alpha * D)). apply ln_increasing; [apply exp_pos|lra]. }
    apply (Rmult_lt_reg_r alpha); auto. unfold Rdiv.
    rewrite Rmult_assoc, Rinv_l, Rmult_1_r by lra. lra.
Qed.

Lemma depth_nonneg alpha u : 0 < alpha -> 0 <= u < 1 -> 0 <= - ln (1 - u) / alpha.
Proof.
  intros Ha Hu. apply Rmult_le_pos; [|left; now apply Rinv_0_lt_compat].
  assert (ln (1 - u) <= ln 1); [|rewrite ln_1 in *; lra].
  destruct (Req_EM_T u 0) as [->|]; [rewrite Rminus_0_r; lra|].
  left. apply ln_increasing; lra.
Qed.

Lemma delay_nonneg tau u : 0 <= tau -> 0 <= u < 1 -> 0 <= delay tau u.
Proof.
  intros Ht Hu. unfold delay. rb; [lra|].
  pose proof (depth_nonneg 1 u ltac:(lra) Hu) as H. unfold Rdiv in H. rewrite Rinv_1 in H. nra.
Qed.

Lemma coefficients_length cs nm l : coefficients cs nm = Some l -> length l = length cs.
Proof.
  revert l. induction cs as [|c r IH]; simpl; intros l H; [inversion H; reflexivity|].
  destruct (dist_call (c_dist c) nm); [|discriminate]. destruct (coefficients r nm) eqn:E; [|discriminate].
  inversion H; simpl. f_equal. now apply IH.
Qed.
