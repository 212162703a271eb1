(** Shared definitions: boolean comparisons on the reals, a stable insertion
    sort by a real key (the meaning of Python's [sorted(key=...)]) and a few
    list facts.  No pvtrace code is modelled here. *)
From Coq Require Import Reals Lra List Bool Arith Lia Permutation Sorted.
Import ListNotations.
Open Scope R_scope.

Definition Rltb (x y : R) : bool := if Rlt_dec x y then true else false.
Definition Rleb (x y : R) : bool := if Rle_dec x y then true else false.
Definition Reqb (x y : R) : bool := if Req_EM_T x y then true else false.

Lemma Rltb_spec x y : reflect (x < y) (Rltb x y).
Proof. unfold Rltb. destruct (Rlt_dec x y); constructor; lra. Qed.
Lemma Rleb_spec x y : reflect (x <= y) (Rleb x y).
Proof. unfold Rleb. destruct (Rle_dec x y); constructor; lra. Qed.
Lemma Reqb_spec x y : reflect (x = y) (Reqb x y).
Proof. unfold Reqb. destruct (Req_EM_T x y); constructor; lra. Qed.

Lemma Rltb_true x y : Rltb x y = true <-> x < y.
Proof. destruct (Rltb_spec x y); split; intros; try lra; try discriminate; auto. Qed.
Lemma Rltb_false x y : Rltb x y = false <-> y <= x.
Proof. destruct (Rltb_spec x y); split; intros; try lra; try discriminate; auto. Qed.
Lemma Rleb_true x y : Rleb x y = true <-> x <= y.
Proof. destruct (Rleb_spec x y); split; intros; try lra; try discriminate; auto. Qed.
Lemma Rleb_false x y : Rleb x y = false <-> y < x.
Proof. destruct (Rleb_spec x y); split; intros; try lra; try discriminate; auto. Qed.
Lemma Reqb_true x y : Reqb x y = true <-> x = y.
Proof. destruct (Reqb_spec x y); split; intros; try lra; try discriminate; auto. Qed.
Lemma Reqb_false x y : Reqb x y = false <-> x <> y.
Proof. destruct (Reqb_spec x y); split; intros; try lra; try discriminate; auto. Qed.

(** Case analysis on every boolean comparison of reals. *)
Ltac rb :=
  repeat match goal with
  | |- context [Rltb ?x ?y] => destruct (Rltb_spec x y)
  | |- context [Rleb ?x ?y] => destruct (Rleb_spec x y)
  | |- context [Reqb ?x ?y] => destruct (Reqb_spec x y)
  | H : context [Rltb ?x ?y] |- _ => destruct (Rltb_spec x y)
  | H : context [Rleb ?x ?y] |- _ => destruct (Rleb_spec x y)
  | H : context [Reqb ?x ?y] |- _ => destruct (Reqb_spec x y)
  end.

(** Rewrite a comparison of two concrete numbers, by [lra]. *)
Ltac rltb_t x y := replace (Rltb x y) with true by (symmetry; apply Rltb_true; lra).
Ltac rltb_f x y := replace (Rltb x y) with false by (symmetry; apply Rltb_false; lra).
Ltac rleb_t x y := replace (Rleb x y) with true by (symmetry; apply Rleb_true; lra).
Ltac rleb_f x y := replace (Rleb x y) with false by (symmetry; apply Rleb_false; lra).

(** Decide all comparisons in the goal whose outcome [lra] can establish. *)
Ltac rdec :=
  repeat match goal with
  | |- context [Rltb ?x ?y] => first [rltb_t x y | rltb_f x y]
  | |- context [Rleb ?x ?y] => first [rleb_t x y | rleb_f x y]
  | |- context [Reqb ?x ?y] =>
      first [replace (Reqb x y) with true by (symmetry; apply Reqb_true; lra)
            |replace (Reqb x y) with false by (symmetry; apply Reqb_false; lra)]
  end.

(** ** Stable sort by key *)
Section Sort.
  Context {A : Type} (key : A -> R).

  Fixpoint insert_by (a : A) (l : list A) : list A :=
    match l with
    | [] => [a]
    | b :: r => if Rltb (key b) (key a) then b :: insert_by a r else a :: b :: r
    end.

  (** [sorted(l, key=key)]: stable, ascending. *)
  Fixpoint sort_by (l : list A) : list A :=
    match l with
    | [] => []
    | a :: r => insert_by a (sort_by r)
    end.

  Definition sorted_by (l : list A) : Prop :=
    StronglySorted (fun a b => key a <= key b) l.

  Lemma insert_by_perm a l : Permutation (a :: l) (insert_by a l).
  Proof.
    induction l as [|b r IH]; simpl; [reflexivity|].
    rb; [|reflexivity].
    rewrite perm_swap. now constructor.
  Qed.

  Lemma sort_by_perm l : Permutation l (sort_by l).
  Proof.
    induction l as [|a r IH]; simpl; [reflexivity|].
    rewrite IH at 1. apply insert_by_perm.
  Qed.

  Lemma insert_by_sorted a l : sorted_by l -> sorted_by (insert_by a l).
  Proof.
    unfold sorted_by. induction 1 as [|b r Hs IH Hall]; simpl.
    - repeat constructor.
    - rb.
      + constructor; [assumption|].
        rewrite Forall_forall in *. intros x Hx.
        apply (Permutation_in _ (Permutation_sym (insert_by_perm a r))) in Hx.
        destruct Hx as [<-|Hx]; [lra|auto].
      + constructor; [constructor; assumption|].
        constructor; [lra|]. rewrite Forall_forall in *.
        intros x Hx. specialize (Hall x Hx). lra.
  Qed.

  Lemma sort_by_sorted l : sorted_by (sort_by l).
  Proof.
    induction l as [|a r IH]; simpl; [constructor|now apply insert_by_sorted].
  Qed.

  Lemma insert_by_sorted_id a l :
    sorted_by (a :: l) -> insert_by a l = a :: l.
  Proof.
    intros H. inversion H as [|? ? Hs Hall]; subst.
    destruct l as [|b r]; simpl; [reflexivity|].
    inversion Hall; subst. rb; [lra|reflexivity].
  Qed.

  Lemma sort_by_sorted_id l : sorted_by l -> sort_by l = l.
  Proof.
    induction l as [|a r IH]; intros H; simpl; [reflexivity|].
    inversion H; subst. rewrite IH by assumption. now apply insert_by_sorted_id.
  Qed.

  Lemma sorted_by_filter f l : sorted_by l -> sorted_by (filter f l).
  Proof.
    induction 1 as [|a r Hs IH Hall]; simpl; [constructor|].
    destruct (f a); [|assumption]. constructor; [assumption|].
    rewrite Forall_forall in *. intros x Hx. apply filter_In in Hx.
    now apply Hall.
  Qed.

  Lemma sorted_by_head a l x : sorted_by (a :: l) -> In x (a :: l) -> key a <= key x.
  Proof.
    intros H [<-|Hx]; [lra|]. inversion H as [|? ? _ Hall]; subst.
    rewrite Forall_forall in Hall. auto.
  Qed.

  Lemma sorted_by_tail a l : sorted_by (a :: l) -> sorted_by l.
  Proof. now inversion 1. Qed.
End Sort.

(** ** List helpers *)
Lemma in_filter_iff {A} (f : A -> bool) l x : In x (filter f l) <-> In x l /\ f x = true.
Proof. apply filter_In. Qed.

Lemma last_app_single {A} (l : list A) x d : last (l ++ [x]) d = x.
Proof. induction l as [|a r IH]; simpl; [reflexivity|]. destruct (r ++ [x]) eqn:E; [destruct r; discriminate|exact IH]. Qed.

(** Running sums, [numpy.cumsum]. *)
Fixpoint cumsum_from (acc : R) (l : list R) : list R :=
  match l with
  | [] => []
  | a :: r => (acc + a) :: cumsum_from (acc + a) r
  end.
Definition cumsum := cumsum_from 0.
Definition rsum (l : list R) : R := fold_right Rplus 0 l.

Lemma rsum_app a b : rsum (a ++ b) = rsum a + rsum b.
Proof. unfold rsum. induction a; simpl; lra. Qed.

Lemma rsum_nonneg l : Forall (fun x => 0 <= x) l -> 0 <= rsum l.
Proof. unfold rsum. induction 1; simpl; lra. Qed.

Lemma rsum_perm a b : Permutation a b -> rsum a = rsum b.
Proof. unfold rsum. induction 1; simpl; lra. Qed.

Lemma cumsum_from_length acc l : length (cumsum_from acc l) = length l.
Proof. revert acc; induction l; simpl; intros; auto. Qed.

Lemma cumsum_from_nth l acc i d :
  (i < length l)%nat -> nth i (cumsum_from acc l) d = acc + rsum (firstn (S i) l).
Proof.
  revert acc i. induction l as [|a r IH]; simpl; intros acc i H; [lia|].
  destruct i; [unfold rsum; destruct r; simpl; lra|].
  rewrite IH by lia. unfold rsum. simpl. lra.
Qed.

Lemma rsum_le_all l : Forall (fun x => 0 <= x) l -> forall i j, (i <= j)%nat ->
  rsum (firstn i l) <= rsum (firstn j l).
Proof.
  induction 1 as [|a r Ha Hr IH]; intros i j Hij.
  - rewrite !firstn_nil. lra.
  - destruct i, j; simpl; try lia; try lra.
    + assert (0 <= rsum (firstn j r)); [|unfold rsum in *; simpl; lra].
      apply rsum_nonneg. apply Forall_forall. intros x Hx.
      apply (Forall_forall (fun x => 0 <= x) r); auto.
      rewrite <- (firstn_skipn j r). apply in_or_app. auto.
    + specialize (IH i j). unfold rsum in *. simpl. 
      assert (i <= j)%nat by lia. specialize (IH H). lra.
Qed.
