(** Lemmas about the compiled tracer: scans over the hit table. *)
From Coq Require Import Reals Lra List Bool Arith Lia Permutation Sorted.
From Verif Require Import Base Vec DistModel MaterialModel OpticsModel PhaseModel TransformModel GeomModel GeomProofs TracerModel TracerProofs KernelModel.
Import ListNotations.
Open Scope R_scope.

(** ** Stable sort *)
Lemma map_sort_by {A B} (f : A -> B) (key : B -> R) l :
  map f (sort_by (fun x => key (f x)) l) = sort_by key (map f l).
Proof.
  induction l as [|a l IH]; simpl; [reflexivity|]. rewrite <- IH.
  generalize (sort_by (fun x => key (f x)) l). intros s. induction s as [|b s IHs]; simpl; [reflexivity|].
  destruct (Rltb _ _); simpl; [now rewrite IHs|reflexivity].
Qed.

Lemma insert_filter {A} (key : A -> R) f a l : sorted_by key l ->
  filter f (insert_by key a l) = if f a then insert_by key a (filter f l) else filter f l.
Proof.
  induction 1 as [|b r Hs IH Hall]; simpl; [destruct (f a); reflexivity|].
  destruct (Rltb_spec (key b) (key a)) as [Hlt|Hge]; simpl.
  - rewrite IH. destruct (f b) eqn:Eb, (f a) eqn:Ea; simpl; auto.
    now rewrite (proj2 (Rltb_true (key b) (key a))) by lra.
  - destruct (f a) eqn:Ea; [|reflexivity]. destruct (f b) eqn:Eb; simpl.
    + now rewrite (proj2 (Rltb_false (key b) (key a))) by lra.
    + symmetry. apply insert_by_sorted_id. constructor; [now apply sorted_by_filter|].
      rewrite Forall_forall in *. intros x Hx. apply filter_In in Hx. specialize (Hall x (proj1 Hx)). lra.
Qed.

Lemma sort_filter {A} (key : A -> R) f l : filter f (sort_by key l) = sort_by key (filter f l).
Proof.
  induction l as [|a l IH]; simpl; [reflexivity|].
  rewrite insert_filter by apply sort_by_sorted. rewrite IH. now destruct (f a).
Qed.

Lemma sort_head_split {A} (key : A -> R) a x b :
  (forall y, In y a -> key x < key y) -> (forall y, In y b -> key x <= key y) ->
  sort_by key (a ++ x :: b) = x :: sort_by key (a ++ b).
Proof.
  intros Ha Hb. induction a as [|y a IH]; simpl.
  - apply insert_by_sorted_id. constructor; [apply sort_by_sorted|].
    apply Forall_forall. intros z Hz. apply Hb. now apply (Permutation_in _ (Permutation_sym (sort_by_perm key b))).
  - rewrite IH by (intros z Hz; apply Ha; now right). simpl.
    now rewrite (proj2 (Rltb_true (key x) (key y))) by (apply Ha; now left).
Qed.

(** First element with the least second component. *)
Fixpoint firstmin (l : list (nat * R)) : option (nat * R) :=
  match l with
  | [] => None
  | x :: r => match firstmin r with
              | None => Some x
              | Some y => if Rltb (snd y) (snd x) then Some y else Some x
              end
  end.

Lemma head_sort l : hd_error (sort_by snd l) = firstmin l.
Proof.
  induction l as [|x l IH]; simpl; [reflexivity|]. rewrite <- IH.
  destruct (sort_by snd l) as [|b r]; simpl; [reflexivity|]. destruct (Rltb _ _); reflexivity.
Qed.

Definition keep_min (acc : option (nat * R)) (q : nat * R) : option (nat * R) :=
  match acc with None => Some q | Some b => if Rltb (snd q) (snd b) then Some q else acc end.
Definition merge_min (a b : option (nat * R)) : option (nat * R) :=
  match a, b with
  | None, _ => b
  | _, None => a
  | Some x, Some y => if Rltb (snd y) (snd x) then Some y else a
  end.
Lemma keep_min_merge l : forall acc, fold_left keep_min l acc = merge_min acc (firstmin l).
Proof.
  induction l as [|x l IH]; intros acc; simpl.
  - destruct acc; reflexivity.
  - rewrite IH. destruct acc as [b|]; simpl; destruct (firstmin l) as [y|]; simpl; try reflexivity.
    + rb; simpl; rb; try reflexivity; try (exfalso; lra).
    + rb; reflexivity.
Qed.

(** ** The index scans *)
Lemma seq_snoc a n : seq a (S n) = seq a n ++ [(a + n)%nat].
Proof. replace (S n) with (n + 1)%nat by lia. now rewrite seq_app. Qed.

Lemma first_scan h m : let f := fold_left (fun first i => if Rltb (t_of h i) (t_of h first) then i else first) (seq 1 m) 0%nat in
  (f <= m)%nat /\ (forall j, (j < f)%nat -> t_of h f < t_of h j) /\ (forall j, (j <= m)%nat -> t_of h f <= t_of h j).
Proof.
  cbv zeta. induction m as [|m IH].
  - simpl. split; [lia|]. split; intros j Hj; [lia|]. replace j with 0%nat by lia. lra.
  - rewrite seq_snoc, fold_left_app. simpl. destruct IH as (Hle & Hlt & Hmin).
    set (f := fold_left _ (seq 1 m) 0%nat) in *. destruct (Rltb_spec (t_of h (S m)) (t_of h f)) as [H|H].
    + split; [lia|]. split.
      * intros j Hj. specialize (Hmin j ltac:(lia)). lra.
      * intros j Hj. destruct (Nat.eq_dec j (S m)) as [->|]; [lra|]. specialize (Hmin j ltac:(lia)). lra.
    + split; [lia|]. split; [exact Hlt|].
      intros j Hj. destruct (Nat.eq_dec j (S m)) as [->|]; [lra|]. apply Hmin. lia.
Qed.

Lemma second_scan h first m :
  match fold_left (fun second i =>
      if Nat.eqb i first then second
      else match second with None => Some i | Some s => if Rltb (t_of h i) (t_of h s) then Some i else second end)
      (seq 0 m) None with
  | None => forall j, (j < m)%nat -> j = first
  | Some s => (s < m)%nat /\ s <> first /\
      (forall j, (j < s)%nat -> j <> first -> t_of h s < t_of h j) /\
      (forall j, (j < m)%nat -> j <> first -> t_of h s <= t_of h j)
  end.
Proof.
  induction m as [|m IH]; [simpl; intros; lia|].
  rewrite seq_snoc, fold_left_app. simpl. set (o := fold_left _ (seq 0 m) None) in *.
  destruct (Nat.eqb_spec m first) as [->|Hne].
  - destruct o as [s|].
    + destruct IH as (H1 & H2 & H3 & H4). split; [lia|]. split; [exact H2|]. split; [exact H3|].
      intros j Hj Hn. apply H4; [lia|exact Hn].
    + intros j Hj. destruct (Nat.eq_dec j first); [assumption|]. apply IH. lia.
  - destruct o as [s|].
    + destruct IH as (H1 & H2 & H3 & H4). destruct (Rltb_spec (t_of h m) (t_of h s)) as [H|H].
      * split; [lia|]. split; [exact Hne|]. split.
        -- intros j Hj Hn. specialize (H4 j Hj Hn). lra.
        -- intros j Hj Hn. destruct (Nat.eq_dec j m) as [->|]; [lra|]. specialize (H4 j ltac:(lia) Hn). lra.
      * split; [lia|]. split; [exact H2|]. split; [exact H3|].
        intros j Hj Hn. destruct (Nat.eq_dec j m) as [->|]; [lra|]. apply H4; [lia|exact Hn].
    + split; [lia|]. split; [exact Hne|]. split; intros j Hj Hn.
      * exfalso. apply Hn, IH. lia.
      * destruct (Nat.eq_dec j m) as [->|]; [lra|]. exfalso. apply Hn, IH. lia.
Qed.

Lemma t_of_app_l a b i : (i < length a)%nat -> t_of (a ++ b) i = t_of a i.
Proof. intros H. unfold t_of. now rewrite app_nth1. Qed.
Lemma t_of_app_r a b i : t_of (a ++ b) (length a + i) = t_of b i.
Proof. unfold t_of. rewrite app_nth2 by lia. f_equal. f_equal. lia. Qed.

(** The two scans find the first two elements of the stable sort. *)
Lemma scans_sort h : h <> [] ->
  exists tl, sort_by snd h = nth (k_first h) h (0%nat, 0) :: tl /\
    match k_second h (k_first h) with
    | None => tl = []
    | Some s => exists tl', tl = nth s h (0%nat, 0) :: tl'
    end.
Proof.
  intros Hh. pose proof (first_scan h (length h - 1)) as Hf. cbv zeta in Hf.
  fold (k_first h) in Hf. destruct Hf as (Hle & Hlt & Hmin).
  assert (Hl : (0 < length h)%nat) by (destruct h; [congruence|simpl; lia]).
  destruct (nth_split h (0%nat, 0) (n := k_first h)) as (a & b & E & La); [lia|].
  set (f := k_first h) in *. set (x := nth f h (0%nat, 0)) in *.
  assert (Ex : t_of h f = snd x) by reflexivity.
  assert (Lh : length h = (length a + S (length b))%nat) by (rewrite E, app_length; reflexivity).
  assert (Ha : forall y, In y a -> snd x < snd y).
  { intros y Hy. destruct (In_nth _ _ (0%nat, 0) Hy) as (j & Hj & Ej).
    specialize (Hlt j ltac:(lia)). rewrite Ex in Hlt. rewrite E, t_of_app_l in Hlt by lia.
    unfold t_of in Hlt. now rewrite Ej in Hlt. }
  assert (Hb : forall y, In y b -> snd x <= snd y).
  { intros y Hy. destruct (In_nth _ _ (0%nat, 0) Hy) as (j & Hj & Ej).
    specialize (Hmin (length a + S j)%nat ltac:(lia)). rewrite Ex in Hmin. rewrite E, t_of_app_r in Hmin.
    unfold t_of in Hmin. simpl in Hmin. now rewrite Ej in Hmin. }
  exists (sort_by snd (a ++ b)). split.
  { rewrite E at 1. now apply sort_head_split. }
  pose proof (second_scan h f (length h)) as Hs. fold (k_second h f) in Hs.
  destruct (k_second h f) as [s|].
  - destruct Hs as (Hs1 & Hs2 & Hs3 & Hs4).
    assert (Hab : exists a' b', a ++ b = a' ++ nth s h (0%nat, 0) :: b' /\
       (forall y, In y a' -> snd (nth s h (0%nat, 0)) < snd y) /\ (forall y, In y b' -> snd (nth s h (0%nat, 0)) <= snd y)).
    { assert (Ey : snd (nth s h (0%nat, 0)) = t_of h s) by reflexivity.
      destruct (lt_dec s f) as [Hsf|Hsf].
      - destruct (nth_split a (0%nat, 0) (n := s)) as (a1 & a2 & Ea & La1); [lia|].
        assert (En : nth s h (0%nat, 0) = nth s a (0%nat, 0)) by (rewrite E; apply app_nth1; lia).
        exists a1, (a2 ++ b). rewrite En at 1. rewrite Ea at 1. rewrite <- app_assoc. split; [reflexivity|].
        rewrite Ey. split.
        + intros y Hy. destruct (In_nth _ _ (0%nat, 0) Hy) as (j & Hj & Ej).
          specialize (Hs3 j ltac:(lia) ltac:(lia)).
          assert (t_of h j = snd y); [|lra].
          rewrite E, t_of_app_l by lia. rewrite Ea, t_of_app_l by lia. unfold t_of. now rewrite Ej.
        + intros y Hy. apply in_app_or in Hy as [Hy|Hy].
          * destruct (In_nth _ _ (0%nat, 0) Hy) as (j & Hj & Ej).
            assert (Hla : length a = (length a1 + S (length a2))%nat) by (rewrite Ea, app_length; reflexivity).
            specialize (Hs4 (length a1 + S j)%nat ltac:(lia) ltac:(lia)).
            assert (t_of h (length a1 + S j) = snd y); [|lra].
            rewrite E, t_of_app_l by lia. rewrite Ea, t_of_app_r. unfold t_of. simpl. now rewrite Ej.
          * destruct (In_nth _ _ (0%nat, 0) Hy) as (j & Hj & Ej).
            specialize (Hs4 (length a + S j)%nat ltac:(lia) ltac:(lia)).
            assert (t_of h (length a + S j) = snd y); [|lra].
            rewrite E, t_of_app_r. unfold t_of. simpl. now rewrite Ej.
      - assert (Hs' : (s > f)%nat) by lia.
        destruct (nth_split b (0%nat, 0) (n := (s - S f)%nat)) as (b1 & b2 & Eb & Lb1); [lia|].
        assert (En : nth s h (0%nat, 0) = nth (s - S f) b (0%nat, 0)).
        { rewrite E, app_nth2 by lia. rewrite La. replace (s - f)%nat with (S (s - S f)) by lia. reflexivity. }
        exists (a ++ b1), b2. rewrite En at 1. rewrite Eb at 1. rewrite <- app_assoc. split; [reflexivity|].
        rewrite Ey. split.
        + intros y Hy. apply in_app_or in Hy as [Hy|Hy].
          * destruct (In_nth _ _ (0%nat, 0) Hy) as (j & Hj & Ej).
            specialize (Hs3 j ltac:(lia) ltac:(lia)).
            assert (t_of h j = snd y); [|lra]. rewrite E, t_of_app_l by lia. unfold t_of. now rewrite Ej.
          * destruct (In_nth _ _ (0%nat, 0) Hy) as (j & Hj & Ej).
            specialize (Hs3 (length a + S j)%nat ltac:(lia) ltac:(lia)).
            assert (t_of h (length a + S j) = snd y); [|lra].
            rewrite E, t_of_app_r. unfold t_of. simpl. rewrite Eb, app_nth1 by lia. now rewrite Ej.
        + intros y Hy. destruct (In_nth _ _ (0%nat, 0) Hy) as (j & Hj & Ej).
          assert (Hlb : length b = (length b1 + S (length b2))%nat) by (rewrite Eb, app_length; reflexivity).
          specialize (Hs4 (length a + S (length b1 + S j))%nat ltac:(lia) ltac:(lia)).
          assert (t_of h (length a + S (length b1 + S j)) = snd y); [|lra].
          rewrite E, t_of_app_r. unfold t_of. cbn [nth]. rewrite Eb, app_nth2 by lia.
          replace (length b1 + S j - length b1)%nat with (S j) by lia. simpl. now rewrite Ej. }
    destruct Hab as (a' & b' & Eab & Ha' & Hb'). exists (sort_by snd (a' ++ b')). rewrite Eab. now apply sort_head_split.
  - assert (a = [] /\ b = []) as (-> & ->); [|reflexivity].
    destruct a as [|a0 a].
    + split; [reflexivity|]. destruct b as [|b0 b]; [reflexivity|]. specialize (Hs 1%nat ltac:(simpl in *; lia)). simpl in *. lia.
    + exfalso. specialize (Hs 0%nat ltac:(lia)). simpl in La. lia.
Qed.

(** ** The container scan *)
Definition count_node (n : nat) (h : list (nat * R)) : nat := length (filter (fun q => Nat.eqb (fst q) n) h).

Lemma count_node_perm n a b : Permutation a b -> count_node n a = count_node n b.
Proof. intros H. unfold count_node. apply Permutation_length. now apply filter_perm. Qed.
Lemma count_node_app n a b : count_node n (a ++ b) = (count_node n a + count_node n b)%nat.
Proof. unfold count_node. now rewrite filter_app, app_length. Qed.
Lemma count_node_block n m ts : count_node n (map (pair m) ts) = if Nat.eqb m n then length ts else 0%nat.
Proof.
  unfold count_node. destruct (Nat.eqb_spec m n) as [->|Hn].
  - induction ts; simpl; [reflexivity|]. rewrite Nat.eqb_refl. simpl. now rewrite IHts.
  - induction ts; simpl; [reflexivity|]. destruct (Nat.eqb_spec m n); [congruence|]. exact IHts.
Qed.
Lemma count_node_blocks (ts : nat -> list R) n l : NoDup l ->
  count_node n (flat_map (fun m => map (pair m) (ts m)) l) = if existsb (Nat.eqb n) l then length (ts n) else 0%nat.
Proof.
  induction 1 as [|m l Hm Hl IH]; simpl; [reflexivity|]. rewrite count_node_app, count_node_block, IH.
  rewrite (Nat.eqb_sym n m). destruct (Nat.eqb_spec m n) as [->|Hn]; simpl; [|reflexivity].
  replace (existsb (Nat.eqb n) l) with false; [lia|]. symmetry. apply not_true_iff_false. intros E.
  apply existsb_exists in E as (y & Hy & Ey). apply Nat.eqb_eq in Ey. now subst.
Qed.

Lemma filter_flat_map {A B} (f : B -> bool) (g : A -> list B) l : filter f (flat_map g l) = flat_map (fun x => filter f (g x)) l.
Proof. induction l; simpl; [reflexivity|]. now rewrite filter_app, IHl. Qed.
Lemma flat_map_ext_in {A B} (f g : A -> list B) l : (forall x, In x l -> f x = g x) -> flat_map f l = flat_map g l.
Proof. induction l; simpl; intros H; [reflexivity|]. rewrite H by now left. f_equal. apply IHl. intros; apply H; now right. Qed.

Definition singles (h : list (nat * R)) : list (nat * R) := filter (fun q => Nat.eqb (count_node (fst q) h) 1) h.

Lemma singles_blocks K p d : singles (all_hits K p d) =
  flat_map (fun n => if Nat.eqb (length (node_ts K p d n)) 1 then map (pair n) (node_ts K p d n) else []) (seq 0 (k_nodes K)).
Proof.
  unfold singles, all_hits. rewrite filter_flat_map. apply flat_map_ext_in. intros n Hn.
  assert (Hc : count_node n (flat_map (fun n => map (pair n) (node_ts K p d n)) (seq 0 (k_nodes K))) = length (node_ts K p d n)).
  { rewrite count_node_blocks by apply seq_NoDup. replace (existsb (Nat.eqb n) (seq 0 (k_nodes K))) with true; [reflexivity|].
    symmetry. apply existsb_exists. exists n. split; [exact Hn|apply Nat.eqb_refl]. }
  transitivity (filter (fun _ : nat * R => Nat.eqb (length (node_ts K p d n)) 1) (map (pair n) (node_ts K p d n))).
  - apply filter_ext_in. intros q Hq. apply in_map_iff in Hq as (t & <- & _). cbn [fst]. now rewrite Hc.
  - destruct (Nat.eqb _ 1); generalize (map (pair n) (node_ts K p d n)); intros l; induction l; simpl; auto. now rewrite IHl.
Qed.

Lemma container_scan K p d : k_container K p d = option_map fst (firstmin (singles (all_hits K p d))).
Proof.
  rewrite singles_blocks. unfold k_container. pose proof (keep_min_merge) as Hk.
  set (g := fun n => if Nat.eqb (length (node_ts K p d n)) 1 then map (pair n) (node_ts K p d n) else []).
  assert (Hgen : forall l acc, fold_left (fun (acc : option nat * option R) n =>
         let ts := node_ts K p d n in
         if Nat.eqb (length ts) 1 && lt_best (node_min ts) (snd acc) then (Some n, node_min ts) else acc) l
         (option_map fst acc, option_map snd acc) =
       (option_map fst (fold_left keep_min (flat_map g l) acc), option_map snd (fold_left keep_min (flat_map g l) acc))).
  { induction l as [|n l IH]; intros acc; simpl; [reflexivity|]. rewrite fold_left_app. rewrite <- IH. f_equal. unfold g.
    destruct (node_ts K p d n) as [|t [|t' ts]]; simpl; [reflexivity| |reflexivity].
    destruct acc as [[n0 t0]|]; simpl; [|reflexivity]. destruct (Rltb t t0); reflexivity. }
  specialize (Hgen (seq 0 (k_nodes K)) None). cbn [option_map] in Hgen. rewrite Hgen. cbn [fst]. rewrite Hk. reflexivity.
Qed.

(** ** Length of the hit table *)
Lemma node_ts_length K p d n : (length (node_ts K p d n) <= 4)%nat.
Proof.
  unfold node_ts, intersect_node. destruct (k_shape K n) as [size|rad|len rad].
  - unfold k_intersect_box. destruct (box_interval _ _ _) as [[[a|] [b|]]|]; simpl; try lia.
    rb; simpl; try lia; rb; simpl; lia.
  - unfold k_intersect_sphere. cbv zeta. rb; simpl; try lia; rb; simpl; lia.
  - unfold k_intersect_cylinder. cbv zeta.
    assert (Hf : forall (A : Type) (f : A -> bool) l, (length (filter f l) <= length l)%nat)
      by (intros; induction l as [|y l0 IHl]; simpl; [lia|destruct (f y); simpl; lia]).
    eapply Nat.le_trans; [apply Hf|]. rewrite app_length.
    apply (Nat.le_trans _ (2 + 2)); [|lia]. apply Nat.add_le_mono.
    + destruct (Rltb _ _); [|simpl; lia]. destruct (Rleb _ _); [|simpl; lia]. eapply Nat.le_trans; [apply Hf|simpl; lia].
    + destruct (Rltb _ _); [|simpl; lia]. eapply Nat.le_trans; [apply Hf|simpl; lia].
Qed.

Lemma all_hits_length K p d : (length (all_hits K p d) <= 4 * k_nodes K)%nat.
Proof.
  unfold all_hits. rewrite <- (seq_length (k_nodes K) 0) at 2. generalize (seq 0 (k_nodes K)). intros l.
  induction l as [|n l IH]; simpl; [lia|]. rewrite app_length, map_length. pose proof (node_ts_length K p d n). lia.
Qed.

Lemma hit_table_all K p d : (k_nodes K <= 128)%nat -> hit_table K p d = all_hits K p d.
Proof.
  intros H. unfold hit_table. apply firstn_all2. pose proof (all_hits_length K p d). unfold MAX_HITS. lia.
Qed.

(** ** next_hit agrees *)
Definition node_dist (i : intersection) : nat * R := (h_node i, h_distance i).

(** Python sees, after dropping the surface the ray starts on, the crossings found by
    the kernel in ascending order, each at the point p + t d. *)
Definition same_hits (S : scene) (K : kscene) (p d : vec) : Prop :=
  let l := filter (fun i => negb (close_to_zero (h_distance i))) (hits S p d) in
  map node_dist l = sort_by snd (all_hits K p d) /\
  (forall i, In i l -> 0 <= h_distance i /\ h_point i = at_ray p d (h_distance i)).

Lemma count_hits_node n l : count_hits n l = count_node n (map node_dist l).
Proof.
  unfold count_hits, count_node. induction l as [|i l IH]; simpl; [reflexivity|].
  destruct (Nat.eqb (h_node i) n); simpl; now rewrite IH.
Qed.

Lemma find_container_scan K p d l : map node_dist l = sort_by snd (all_hits K p d) -> (length l <> 1)%nat ->
  find_container l = k_container K p d.
Proof.
  intros Hm Hl. rewrite container_scan.
  assert (E : find_container l = match sort_by h_distance (filter (fun i => Nat.eqb (count_hits (h_node i) l) 1) l) with
              | [] => None | i :: _ => Some (h_node i) end).
  { destruct l as [|i [|j l']]; try reflexivity. simpl in Hl. lia. }
  rewrite E. clear E.
  set (s := sort_by h_distance _).
  assert (Es : map node_dist s = sort_by snd (singles (all_hits K p d))).
  { unfold s. rewrite (map_sort_by node_dist snd).
    assert (Ef : map node_dist (filter (fun i => Nat.eqb (count_hits (h_node i) l) 1) l)
                 = filter (fun q => Nat.eqb (count_node (fst q) (all_hits K p d)) 1) (map node_dist l)).
    { assert (Hc : forall n, count_hits n l = count_node n (all_hits K p d)).
      { intros n. rewrite count_hits_node, Hm. apply count_node_perm, Permutation_sym, sort_by_perm. }
      clear -Hc. generalize l at 2 3. intros l'. induction l' as [|i l' IH]; simpl; [reflexivity|].
      rewrite Hc. destruct (Nat.eqb _ 1); simpl; now rewrite IH. }
    rewrite Ef, Hm, sort_filter. fold (singles (all_hits K p d)).
    apply sort_by_sorted_id, sort_by_sorted. }
  rewrite <- head_sort, <- Es. destruct s as [|i s']; reflexivity.
Qed.

Lemma next_hit_agrees S K r : (k_nodes K <= 128)%nat -> is_unit (direction r) -> same_hits S K (position r) (direction r) ->
  next_hit S r <> HitError ->
  match next_hit S r with
  | NoHit => k_next_hit K (position r) (direction r) = None
  | HitError => False
  | HitOk h c a D => k_next_hit K (position r) (direction r) = Some (h, c, a, D)
  end.
Proof.
  intros Hn Hu (Hm & Hp) Hne. revert Hne. unfold next_hit, k_next_hit. cbv zeta.
  rewrite hit_table_all by assumption.
  set (l := filter _ (hits S (position r) (direction r))) in *.
  assert (Hd : forall i, In i l -> distance_between (position r) (h_point i) = h_distance i).
  { intros i Hi. destruct (Hp i Hi) as [H0 ->]. unfold at_ray, distance_between.
    replace (vsub _ _) with (vneg (vscale (h_distance i) (direction r))).
    2:{ destruct (position r), (direction r). unfold vneg, vsub, vadd, vscale; simpl. f_equal; ring. }
    rewrite norm_neg, norm_scale_pos, norm_unit by assumption. lra. }
  destruct (all_hits K (position r) (direction r)) as [|q0 qs] eqn:Eh.
  { destruct l as [|i l']; [reflexivity|]. simpl in Hm. discriminate. }
  cbn [hit_table]. remember (q0 :: qs) as h eqn:Hh.
  assert (Hne : h <> []) by (rewrite Hh; discriminate).
  replace (match h with [] => @None (nat * nat * option nat * R) | _ :: _ => _ end) with
    (if Nat.eqb (length h) 1 then Some (n_at h (k_first h), n_at h (k_first h), None, t_of h (k_first h))
      else
        let container := match k_container K (position r) (direction r) with Some c => c | None => n_at h (k_first h) end in
        Some (n_at h (k_first h), container, Some (if Nat.eqb container (n_at h (k_first h))
                        then match k_second h (k_first h) with Some s => n_at h s | None => n_at h (k_first h) end
                        else n_at h (k_first h)), t_of h (k_first h))) by (destruct h; [congruence|reflexivity]).
  clear Hh. cbv zeta.
  destruct (scans_sort h Hne) as (tl & Et & Es). rewrite Et in Hm.
  assert (Hlen : length l = length h).
  { rewrite <- (map_length node_dist l), Hm, <- Et. symmetry. apply Permutation_length, sort_by_perm. }
  destruct l as [|i l']; [discriminate|]. cbn [map] in Hm. injection Hm as Hi Hl'.
  assert (E1 : n_at h (k_first h) = h_node i) by (unfold n_at; rewrite <- Hi; reflexivity).
  assert (E2 : t_of h (k_first h) = h_distance i) by (unfold t_of; rewrite <- Hi; reflexivity).
  rewrite E1, E2.
  destruct l' as [|j l''].
  - intros _. simpl in Hlen. rewrite <- Hlen. reflexivity.
  - destruct (Nat.eqb_spec (length h) 1) as [Hx|_]; [simpl in Hlen; lia|].
    rewrite (find_container_scan K (position r) (direction r)); [|rewrite Eh, Et; cbn [map]; rewrite Hi, <- Hl'; reflexivity|simpl; lia].
    destruct (k_container K _ _) as [c|] eqn:Ec; [|congruence]. intros _.
    rewrite (Hd i) by now left.
    destruct (k_second h (k_first h)) as [s|]; [|rewrite Es in Hl'; discriminate].
    destruct Es as (tl' & Es). rewrite Es in Hl'. injection Hl' as Hj _.
    unfold n_at. rewrite <- Hj. reflexivity.
Qed.
