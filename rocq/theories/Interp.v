(** Piecewise-linear table interpolation: [numpy.interp] and the kernel's
    [interp_clamped]. *)
From Coq Require Import Reals Lra Psatz List Bool Arith Lia.
From Verif Require Import Base.
Import ListNotations.
Open Scope R_scope.

(** A table is a list of knots (x, y). *)
Notation knot := (R * R)%type.

(** numpy.interp(x, xp, fp) to the right of the knot [k0] (C implementation
    compiled_base.c: arr_interp): find the last knot j with xp[j] <= x and
    evaluate the line through knots j and j+1; beyond the last knot return the
    last ordinate.  Simplification: numpy locates j by binary search, here by a
    linear scan; for ascending xp both give the same j. *)
Fixpoint interp_from (k0 : knot) (rest : list knot) (x : R) : R :=
  match rest with
  | [] => snd k0
  | k1 :: r =>
      if Rltb x (fst k1)
      then snd k0 + (snd k1 - snd k0) / (fst k1 - fst k0) * (x - fst k0)
      else interp_from k1 r x
  end.

(** np.interp(x, xp, fp, left=nan, right=nan); [None] stands for nan (or for
    the exception raised on empty tables). *)
Definition np_interp (ks : list knot) (x : R) : option R :=
  match ks with
  | [] => None
  | k0 :: r =>
      if Rltb x (fst k0) then None
      else if Rltb (fst (last ks k0)) x then None
      else Some (interp_from k0 r x)
  end.

(** engine/_kernel.pyx 219-238 interp_clamped, including its bisection.
    [lo]/[hi] are list indices; [fuel] bounds the while loop, which halves
    hi - lo (n rounds are always enough, see [bisect_fuel]). *)
Fixpoint bisect (fuel : nat) (xs : list R) (x : R) (lo hi : nat) : nat * nat :=
  match fuel with
  | O => (lo, hi)
  | S f =>
      if Nat.ltb 1 (hi - lo) then
        let mid := Nat.div2 (lo + hi) in
        if Rleb (nth mid xs 0) x then bisect f xs x mid hi else bisect f xs x lo mid
      else (lo, hi)
  end.

Definition interp_clamped (x : R) (xs ys : list R) : R :=
  let n := length xs in
  if Nat.eqb n 1 then nth 0 ys 0
  else if Rleb x (nth 0 xs 0) then nth 0 ys 0
  else if Rleb (nth (n - 1) xs 0) x then nth (n - 1) ys 0
  else
    let '(lo, hi) := bisect n xs x 0 (n - 1) in
    if Reqb (nth hi xs 0) (nth lo xs 0) then nth lo ys 0
    else nth lo ys 0 + (nth hi ys 0 - nth lo ys 0) * (x - nth lo xs 0)
                       / (nth hi xs 0 - nth lo xs 0).

(** ** Chains: a relation between consecutive knots *)
Fixpoint chain (P : knot -> knot -> Prop) (k0 : knot) (rest : list knot) : Prop :=
  match rest with
  | [] => True
  | k1 :: r => P k0 k1 /\ chain P k1 r
  end.

Definition x_nondec (a b : knot) := fst a <= fst b.
Definition x_strict (a b : knot) := fst a < fst b.
Definition y_nondec (a b : knot) := snd a <= snd b.
Definition y_strict (a b : knot) := snd a < snd b.

Definition swap (k : knot) : knot := (snd k, fst k).

Lemma chain_impl (P Q : knot -> knot -> Prop) k0 r :
  (forall a b, P a b -> Q a b) -> chain P k0 r -> chain Q k0 r.
Proof. intros HPQ. revert k0. induction r; simpl; intros; intuition. Qed.

Lemma chain_swap_x k0 r : chain x_nondec (swap k0) (map swap r) <-> chain y_nondec k0 r.
Proof. revert k0. induction r; simpl; intros; [tauto|]. rewrite IHr. reflexivity. Qed.
Lemma chain_swap_y k0 r : chain y_nondec (swap k0) (map swap r) <-> chain x_nondec k0 r.
Proof. revert k0. induction r; simpl; intros; [tauto|]. rewrite IHr. reflexivity. Qed.
Lemma chain_swap_xs k0 r : chain x_strict (swap k0) (map swap r) <-> chain y_strict k0 r.
Proof. revert k0. induction r; simpl; intros; [tauto|]. rewrite IHr. reflexivity. Qed.
Lemma chain_swap_ys k0 r : chain y_strict (swap k0) (map swap r) <-> chain x_strict k0 r.
Proof. revert k0. induction r; simpl; intros; [tauto|]. rewrite IHr. reflexivity. Qed.

Lemma last_cons_default {A} (a : A) l d : last (a :: l) d = last l a.
Proof.
  revert a d. induction l as [|b l IH]; intros a d; [reflexivity|].
  change (last (a :: b :: l) d) with (last (b :: l) d). rewrite !IH. reflexivity.
Qed.

Lemma last_map {A B} (f : A -> B) l a : last (map f l) (f a) = f (last l a).
Proof.
  revert a. induction l as [|b l IH]; intros a; [reflexivity|].
  cbn [map]. rewrite !last_cons_default. apply IH.
Qed.

Lemma chain_y_last k0 r : chain y_nondec k0 r -> snd k0 <= snd (last r k0).
Proof.
  revert k0. induction r as [|k1 r IH]; intros k0 H; [simpl; lra|].
  rewrite last_cons_default. destruct H as [H1 H2]. specialize (IH _ H2).
  unfold y_nondec in H1. lra.
Qed.
Lemma chain_x_last k0 r : chain x_nondec k0 r -> fst k0 <= fst (last r k0).
Proof.
  revert k0. induction r as [|k1 r IH]; intros k0 H; [simpl; lra|].
  rewrite last_cons_default. destruct H as [H1 H2]. specialize (IH _ H2).
  unfold x_nondec in H1. lra.
Qed.

(** A convex combination written with a division stays between its ends. *)
Lemma lerp_bounds y0 y1 x0 x1 x :
  x0 <= x -> x < x1 -> y0 <= y1 ->
  y0 <= y0 + (y1 - y0) / (x1 - x0) * (x - x0) <= y1.
Proof.
  intros Hx0 Hx1 Hy.
  assert (Hd : 0 < x1 - x0) by lra.
  assert (Hs : 0 <= (y1 - y0) / (x1 - x0)).
  { apply Rmult_le_pos; [lra|]. left. now apply Rinv_0_lt_compat. }
  assert (He : (y1 - y0) / (x1 - x0) * (x1 - x0) = y1 - y0) by (field; lra).
  split; nra.
Qed.

Lemma lerp_strict_upper y0 y1 x0 x1 x :
  x0 <= x -> x < x1 -> y0 < y1 ->
  y0 + (y1 - y0) / (x1 - x0) * (x - x0) < y1.
Proof.
  intros Hx0 Hx1 Hy.
  assert (Hd : 0 < x1 - x0) by lra.
  assert (Hs : 0 < (y1 - y0) / (x1 - x0)).
  { apply Rdiv_lt_0_compat; lra. }
  assert (He : (y1 - y0) / (x1 - x0) * (x1 - x0) = y1 - y0) by (field; lra).
  nra.
Qed.

Lemma interp_from_bounds k0 r x :
  chain y_nondec k0 r -> fst k0 <= x ->
  snd k0 <= interp_from k0 r x <= snd (last r k0).
Proof.
  revert k0. induction r as [|k1 r IH]; intros k0 Hc Hx; [simpl; lra|].
  rewrite last_cons_default.
  destruct Hc as [H1 H2]. unfold y_nondec in H1. simpl interp_from.
  pose proof (chain_y_last _ _ H2).
  destruct (Rltb_spec x (fst k1)).
  - pose proof (lerp_bounds (snd k0) (snd k1) (fst k0) (fst k1) x). lra.
  - specialize (IH k1 H2). lra.
Qed.

Lemma interp_from_mono k0 r x x' :
  chain y_nondec k0 r -> fst k0 <= x -> x <= x' ->
  interp_from k0 r x <= interp_from k0 r x'.
Proof.
  revert k0. induction r as [|k1 r IH]; intros k0 Hc Hx Hxx'; [simpl; lra|].
  destruct Hc as [H1 H2]. unfold y_nondec in H1. simpl.
  destruct (Rltb_spec x (fst k1)), (Rltb_spec x' (fst k1)); try lra.
  - assert (Hd : 0 < fst k1 - fst k0) by lra.
    assert (Hs : 0 <= (snd k1 - snd k0) / (fst k1 - fst k0)).
    { apply Rmult_le_pos; [lra|]. left. now apply Rinv_0_lt_compat. }
    nra.
  - pose proof (lerp_bounds (snd k0) (snd k1) (fst k0) (fst k1) x).
    assert (fst k1 <= x') by lra.
    pose proof (interp_from_bounds k1 r x' H2). lra.
  - apply IH; auto; lra.
Qed.

(** Galois connection between a table and its transpose. *)
Lemma interp_from_galois k0 r x p :
  chain x_strict k0 r -> chain y_nondec k0 r ->
  fst k0 <= x -> x <= fst (last r k0) ->
  interp_from k0 r x <= p ->
  x <= interp_from (swap k0) (map swap r) p.
Proof.
  revert k0. induction r as [|k1 r IH]; intros k0 Hxs Hy Hx0 Hxl Hp; [simpl in *; lra|].
  rewrite last_cons_default in Hxl.
  destruct Hxs as [Hx1 Hxs], Hy as [Hy1 Hy].
  unfold x_strict, y_nondec in *. simpl in *.
  destruct (Rltb_spec x (fst k1)).
  - destruct (Rltb_spec p (snd k1)).
    + assert (Hy01 : 0 < snd k1 - snd k0).
      { pose proof (lerp_bounds (snd k0) (snd k1) (fst k0) (fst k1) x). lra. }
      assert (Hd : 0 < fst k1 - fst k0) by lra.
      set (s := (snd k1 - snd k0) / (fst k1 - fst k0)) in *.
      assert (Hs : 0 < s) by (apply Rdiv_lt_0_compat; lra).
      assert (Hinv : (fst k1 - fst k0) / (snd k1 - snd k0) = / s).
      { unfold s. field. lra. }
      rewrite Hinv.
      assert (/ s * (s * (x - fst k0)) = x - fst k0) by (field; lra).
      assert (0 < / s) by (now apply Rinv_0_lt_compat).
      assert (/ s * (s * (x - fst k0)) <= / s * (p - snd k0)) by (apply Rmult_le_compat_l; lra).
      lra.
    + pose proof (interp_from_bounds (swap k1) (map swap r) p) as Hb.
      assert (Hc : chain y_nondec (swap k1) (map swap r)).
      { apply chain_swap_y. eapply chain_impl; [|exact Hxs]. unfold x_strict, x_nondec; intros; lra. }
      specialize (Hb Hc). simpl in Hb. lra.
  - destruct (Rltb_spec p (snd k1)).
    + pose proof (interp_from_bounds k1 r x Hy). lra.
    + apply IH; auto; lra.
Qed.

(** Exact inverse for strictly increasing tables. *)
Lemma interp_from_inverse k0 r x :
  chain x_strict k0 r -> chain y_strict k0 r ->
  fst k0 <= x -> x <= fst (last r k0) ->
  interp_from (swap k0) (map swap r) (interp_from k0 r x) = x.
Proof.
  revert k0. induction r as [|k1 r IH]; intros k0 Hxs Hys Hx0 Hxl; [simpl in *; lra|].
  rewrite last_cons_default in Hxl.
  destruct Hxs as [Hx1 Hxs], Hys as [Hy1 Hys]. unfold x_strict, y_strict in *. simpl in *.
  destruct (Rltb_spec x (fst k1)).
  - pose proof (lerp_strict_upper (snd k0) (snd k1) (fst k0) (fst k1) x).
    destruct (Rltb_spec (snd k0 + (snd k1 - snd k0) / (fst k1 - fst k0) * (x - fst k0)) (snd k1)); [|lra].
    field. lra.
  - pose proof (interp_from_bounds k1 r x) as Hb.
    assert (Hc : chain y_nondec k1 r).
    { eapply chain_impl; [|exact Hys]. unfold y_strict, y_nondec; intros; lra. }
    specialize (Hb Hc).
    destruct (Rltb_spec (interp_from k1 r x) (snd k1)); [lra|].
    apply IH; auto; lra.
Qed.

(** ** The bisection of the kernel *)
Lemma bisect_inv fuel xs x lo hi l h :
  bisect fuel xs x lo hi = (l, h) ->
  (lo < hi)%nat -> nth lo xs 0 <= x -> x < nth hi xs 0 ->
  (lo <= l)%nat /\ (l < h)%nat /\ (h <= hi)%nat /\ nth l xs 0 <= x /\ x < nth h xs 0.
Proof.
  revert lo hi. induction fuel as [|f IH]; intros lo hi H Hlt Hlo Hhi; simpl in H.
  - inversion H; subst. repeat split; auto; lia.
  - destruct (Nat.ltb_spec 1 (hi - lo)).
    + assert (Hm : (lo < Nat.div2 (lo + hi) < hi)%nat).
      { rewrite Nat.div2_div. split.
        - apply Nat.div_le_lower_bound; lia.
        - apply Nat.div_lt_upper_bound; lia. }
      destruct (Rleb_spec (nth (Nat.div2 (lo + hi)) xs 0) x).
      * apply IH in H; auto; [|lia]. destruct H as (A & B & C & D & E). repeat split; auto; lia.
      * apply IH in H; auto; [|lia|lra]. destruct H as (A & B & C & D & E). repeat split; auto; lia.
    + inversion H; subst. repeat split; auto; lia.
Qed.

Lemma bisect_adjacent fuel xs x lo hi l h :
  bisect fuel xs x lo hi = (l, h) -> (lo < hi)%nat -> (hi - lo <= fuel)%nat -> h = S l.
Proof.
  revert lo hi. induction fuel as [|f IH]; intros lo hi H Hlt Hf; simpl in H; [lia|].
  destruct (Nat.ltb_spec 1 (hi - lo)).
  - assert (Hm : (lo < Nat.div2 (lo + hi) < hi)%nat).
    { rewrite Nat.div2_div. split.
      - apply Nat.div_le_lower_bound; lia.
      - apply Nat.div_lt_upper_bound; lia. }
    destruct (Rleb (nth (Nat.div2 (lo + hi)) xs 0) x); apply IH in H; auto; lia.
  - inversion H; subst. lia.
Qed.

(** [interp_from] in terms of the index of the active segment. *)
Lemma interp_from_index k0 r x j :
  chain x_nondec k0 r ->
  (j < length r)%nat ->
  fst (nth j (k0 :: r) (0,0)) <= x -> x < fst (nth (S j) (k0 :: r) (0,0)) ->
  interp_from k0 r x =
    snd (nth j (k0 :: r) (0,0)) +
    (snd (nth (S j) (k0 :: r) (0,0)) - snd (nth j (k0 :: r) (0,0))) /
    (fst (nth (S j) (k0 :: r) (0,0)) - fst (nth j (k0 :: r) (0,0))) *
    (x - fst (nth j (k0 :: r) (0,0))).
Proof.
  revert k0 j. induction r as [|k1 r IH]; intros k0 j Hc Hj Hlo Hhi; simpl in Hj; [lia|].
  destruct Hc as [H1 H2]. destruct j.
  - simpl in *. rb; [reflexivity|lra].
  - change (nth (S j) (k0 :: k1 :: r) (0,0)) with (nth j (k1 :: r) (0,0)) in *.
    change (nth (S (S j)) (k0 :: k1 :: r) (0,0)) with (nth (S j) (k1 :: r) (0,0)) in *.
    assert (Hge : fst k1 <= x).
    { enough (fst k1 <= fst (nth j (k1 :: r) (0,0))) by lra.
      assert (Hjr : (j <= length r)%nat) by lia.
      clear -H2 Hjr. revert k1 j H2 Hjr. induction r as [|k2 r IH]; intros k1 j H2 Hjr; destruct j; simpl in *; try lra; try lia.
      destruct H2 as [A B]. unfold x_nondec in A. specialize (IH k2 j B ltac:(lia)). simpl in IH. lra. }
    simpl interp_from. destruct (Rltb_spec x (fst k1)); [lra|].
    apply IH; auto; lia.
Qed.

Lemma nth_map_fst (l : list knot) i : nth i (map fst l) 0 = fst (nth i l (0,0)).
Proof. revert i; induction l; destruct i; simpl; auto. Qed.
Lemma nth_map_snd (l : list knot) i : nth i (map snd l) 0 = snd (nth i l (0,0)).
Proof. revert i; induction l; destruct i; simpl; auto. Qed.

Lemma last_nth_knots (k0 : knot) r : last r k0 = nth (length r) (k0 :: r) (0,0).
Proof.
  revert k0. induction r as [|k1 r IH]; intros k0; [reflexivity|].
  rewrite last_cons_default. cbn [length nth]. apply IH.
Qed.

(** The kernel interpolation agrees with np.interp inside the open range, for
    any table with non-decreasing abscissae. *)
Lemma interp_clamped_inside k0 r x :
  chain x_nondec k0 r -> fst k0 < x -> x < fst (last r k0) ->
  interp_clamped x (map fst (k0 :: r)) (map snd (k0 :: r)) = interp_from k0 r x.
Proof.
  intros Hc Hlo Hhi. unfold interp_clamped. cbv zeta.
  rewrite map_length.
  assert (Hlen : (0 < length r)%nat) by (destruct r; simpl in *; [lra|lia]).
  assert (Hl1 : (length (k0 :: r) - 1)%nat = length r) by (simpl; lia).
  rewrite Hl1.
  destruct (Nat.eqb_spec (length (k0 :: r)) 1) as [Hn|Hn]; [simpl in Hn; lia|].
  rewrite !nth_map_fst, !nth_map_snd.
  change (nth 0 (k0 :: r) (0,0)) with k0.
  rewrite <- last_nth_knots.
  rleb_f x (fst k0). rleb_f (fst (last r k0)) x.
  destruct (bisect (length (k0 :: r)) (map fst (k0 :: r)) x 0 (length r)) as [l h] eqn:E.
  pose proof (bisect_adjacent _ _ _ _ _ _ _ E Hlen ltac:(simpl; lia)) as Hadj. subst h.
  pose proof E as E2.
  apply bisect_inv in E2; auto.
  2: { rewrite nth_map_fst. simpl. lra. }
  2: { rewrite nth_map_fst, <- last_nth_knots. lra. }
  destruct E2 as (_ & _ & Hb & Hl & Hh).
  rewrite nth_map_fst in Hl, Hh. rewrite !nth_map_fst, !nth_map_snd.
  destruct (Reqb_spec (fst (nth (S l) (k0 :: r) (0,0))) (fst (nth l (k0 :: r) (0,0)))); [lra|].
  rewrite (interp_from_index k0 r x l Hc ltac:(lia) Hl Hh).
  field. lra.
Qed.
