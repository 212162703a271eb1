(** The Python viewer draws the scene: C136. *)
From Coq Require Import Reals List Bool Arith Lia Lra Ascii String.
From Verif Require Import Base Vec TransformProofs RendererModel RendererProps MeshcatModel.
Import ListNotations.
Open Scope R_scope.

(** ** What is traced and what is seen *)
Definition in_triangle (t : triangle) (p : vec) : Prop :=
  let '(a, b, c) := t in exists u v w, 0 <= u /\ 0 <= v /\ 0 <= w /\ u + v + w = 1 /\
    p = vadd (vscale u a) (vadd (vscale v b) (vscale w c)).
(** the points of a geometry in the frame of its node *)
Definition inside (g : geometry) (p : vec) : Prop :=
  match g with
  | Sphere r => 0 <= r /\ vx p ^ 2 + vy p ^ 2 + vz p ^ 2 <= r ^ 2
  | Cylinder l r => - (l / 2) <= vz p <= l / 2 /\ vx p ^ 2 + vy p ^ 2 <= r ^ 2
  | Mesh ts => exists t, In t ts /\ in_triangle t p
  | Unsupported => False
  end.
(** the points of the solids of a tree, in the frame of its top node *)
Inductive occupied : vnode -> vec -> Prop :=
| occ_here n p g cs x : inside g x -> occupied (VNode n p (Some g) cs) x
| occ_below n p g cs c x : In c cs -> occupied c x -> occupied (VNode n p g cs) (to_point (v_pose c) x).
(** the points of the solids below the root *)
Definition in_scene (root : vnode) (q : vec) : Prop :=
  exists c x, In c (v_children root) /\ occupied c x /\ q = to_point (v_pose c) x.
(** the points of Meshcat's objects: its cylinder lies along y *)
Definition covers (o : object) (p : vec) : Prop :=
  match o with
  | OSphere r => 0 <= r /\ vx p ^ 2 + vy p ^ 2 + vz p ^ 2 <= r ^ 2
  | OCylinder l r => - (l / 2) <= vy p <= l / 2 /\ vx p ^ 2 + vz p ^ 2 <= r ^ 2
  | OMesh ts => exists t, In t ts /\ in_triangle t p
  end.
Definition seen (p : page) (q : vec) : Prop :=
  exists k o x, In (k, o) (objects p) /\ covers o x /\ q = to_point (world (transforms p) [] k) x.

(** ** Names *)
Fixpoint has_char (c : ascii) (s : string) : bool :=
  match s with EmptyString => false | String d s => Ascii.eqb d c || has_char c s end.
Definition plain (n : option string) : Prop :=
  exists s, n = Some s /\ has_char bar s = false /\ has_char slash s = false.
(** every node has a name without "|" and "/", siblings have different names, and every
    geometry is of a class that can be drawn *)
Inductive drawable : vnode -> Prop :=
| drawable_node n p g cs : plain n -> g <> Some Unsupported -> NoDup (map v_name cs) ->
    (forall c, In c cs -> drawable c) -> drawable (VNode n p g cs).

Lemma has_char_app c s t : has_char c (s ++ t) = has_char c s || has_char c t.
Proof. induction s as [|d s IH]; [reflexivity|]. cbn. rewrite IH. destruct (Ascii.eqb d c); reflexivity. Qed.
Lemma split_plain s : has_char slash s = false -> split s = [s].
Proof.
  induction s as [|c s IH]; [reflexivity|]. cbn [has_char split]. intros H. apply orb_false_iff in H. destruct H as [H1 H2].
  rewrite H1, (IH H2). reflexivity.
Qed.
Lemma address_plain s : has_char slash s = false -> s <> EmptyString -> address s = [s].
Proof.
  intros H N. unfold address. rewrite (split_plain s H). cbn. destruct (String.eqb_spec s EmptyString); [contradiction|reflexivity].
Qed.
(** the part before the first bar decides *)
Lemma before_bar a b s t : has_char bar a = false -> has_char bar b = false ->
  (a ++ String bar s = b ++ String bar t)%string -> a = b /\ s = t.
Proof.
  revert b. induction a as [|c a IH]; intros b Ha Hb E; destruct b as [|d b].
  - cbn in E. injection E as E. auto.
  - cbn in E. injection E as E1 E2. subst d. cbn in Hb. discriminate.
  - cbn in E. injection E as E1 E2. subst c. cbn in Ha. discriminate.
  - cbn in E. injection E as E1 E2. subst d. cbn in Ha, Hb. apply orb_false_iff in Ha, Hb.
    destruct (IH b) as [-> ->]; tauto.
Qed.
Lemma app_space a b : (a ++ " " = b ++ " ")%string -> a = b.
Proof.
  revert b. induction a as [|c a IH]; intros [|d b] E; cbn in E; try reflexivity.
  - injection E as _ E. destruct b; discriminate.
  - injection E as _ E. destruct a; discriminate.
  - injection E as -> E. f_equal. apply IH, E.
Qed.
Lemma sep_form a b : (a ++ " | " ++ b = (a ++ " ") ++ String bar (" " ++ b))%string.
Proof. induction a as [|c a IH]; [reflexivity|]. cbn. f_equal. exact IH. Qed.
Lemma sep_inj a b s t : has_char bar a = false -> has_char bar b = false ->
  (a ++ " | " ++ s = b ++ " | " ++ t)%string -> a = b /\ s = t.
Proof.
  intros Ha Hb E. rewrite !sep_form in E. apply before_bar in E.
  - destruct E as [E1 E2]. apply app_space in E1. injection E2 as E2. auto.
  - rewrite has_char_app, Ha. reflexivity.
  - rewrite has_char_app, Hb. reflexivity.
Qed.
Lemma sep_bar a s : has_char bar (a ++ " | " ++ s) = true.
Proof. rewrite has_char_app. apply orb_true_iff. right. reflexivity. Qed.
Lemma join_plain l : Forall plain l -> l <> [] -> exists s, join l = Some s /\ has_char slash s = false /\
  (forall r, (l = [r] -> has_char bar s = false)) /\ (2 <= List.length l -> has_char bar s = true)%nat.
Proof.
  induction 1 as [|n l (s & -> & Hs & Hl) F IH]; [contradiction|]. intros _. destruct l as [|m l].
  - exists s. cbn. repeat split; auto. lia.
  - destruct IH as (t & E & Ht & _); [discriminate|].
    exists (s ++ " | " ++ t)%string. change (join (Some s :: m :: l)) with (match join (m :: l) with Some b => Some (s ++ " | " ++ b)%string | None => None end).
    rewrite E. split; [reflexivity|]. split.
    + rewrite !has_char_app, Hl, Ht. reflexivity.
    + split; [discriminate|]. intros _. apply sep_bar.
Qed.
Lemma join_cons s m l t : join (m :: l) = Some t -> join (Some s :: m :: l) = Some (s ++ " | " ++ t)%string.
Proof. intros E. change (join (Some s :: m :: l)) with (match join (m :: l) with Some b => Some (s ++ " | " ++ b)%string | None => None end). rewrite E. reflexivity. Qed.
Lemma join_inj l : Forall plain l -> forall m, Forall plain m -> l <> [] -> m <> [] -> join l = join m -> l = m.
Proof.
  induction 1 as [|n l (s & -> & Hs & Hl) F IH]; [contradiction|]. intros m Fm _ Nm E.
  destruct Fm as [|n' m (s' & -> & Hs' & Hl') Fm]; [contradiction|].
  destruct l as [|a l], m as [|b m].
  - cbn in E. congruence.
  - destruct (join_plain (b :: m) Fm) as (t & Et & _); [discriminate|]. rewrite (join_cons _ _ _ _ Et) in E. cbn in E.
    injection E as E. rewrite E in Hs. change (has_char bar (s' ++ " | " ++ t) = false) in Hs. rewrite sep_bar in Hs. discriminate.
  - destruct (join_plain (a :: l) F) as (t & Et & _); [discriminate|]. rewrite (join_cons _ _ _ _ Et) in E. cbn in E.
    injection E as E. rewrite <- E in Hs'. change (has_char bar (s ++ " | " ++ t) = false) in Hs'. rewrite sep_bar in Hs'. discriminate.
  - destruct (join_plain (a :: l) F) as (t & Et & _); [discriminate|].
    destruct (join_plain (b :: m) Fm) as (t' & Et' & _); [discriminate|].
    rewrite (join_cons _ _ _ _ Et), (join_cons _ _ _ _ Et') in E. injection E as E. apply sep_inj in E; [|assumption..].
    destruct E as [<- <-]. f_equal. apply IH; try assumption; try discriminate. congruence.
Qed.

(** ** The visits *)
(** [reach v w]: the loop gets from [v] to [w] through children *)
Inductive reach : visit -> visit -> Prop :=
| reach_self v : reach v v
| reach_kid v w c : In c (kids v) -> reach c w -> reach v w.
Lemma height_in c cs : In c cs -> (height c <= fold_right Nat.max O (map height cs))%nat.
Proof. induction cs as [|x cs IH]; [contradiction|]. cbn. intros [ -> |H]; [lia|]. specialize (IH H). lia. Qed.
Lemma kid_height v c : In c (kids v) -> (S (height (vi_node c)) <= height (vi_node v))%nat.
Proof.
  unfold kids. intros H. apply in_map_iff in H. destruct H as (x & <- & H). cbn [vi_node].
  destruct (vi_node v) as [n p g cs]. cbn [height v_children] in *. apply height_in in H. lia.
Qed.
Lemma rows_spec fuel : forall row, (forall v, In v row -> (height (vi_node v) <= fuel)%nat) ->
  forall w, In w (rows fuel row) <-> exists v, In v row /\ reach v w.
Proof.
  induction fuel as [|fuel IH]; intros row H w.
  - cbn. split; [contradiction|]. intros (v & Hv & _). specialize (H v Hv). destruct (vi_node v); cbn in H; lia.
  - cbn [rows]. destruct row as [|a row]; [cbn; split; [contradiction|intros (v & [] & _)]|].
    set (r := a :: row) in *. clearbody r. rewrite in_app_iff, IH.
    + split.
      * intros [Hw|(v & Hv & R)]; [exists w; split; [exact Hw|constructor]|].
        apply in_flat_map in Hv. destruct Hv as (u & Hu & Hv). exists u. split; [exact Hu|]. eapply reach_kid; eassumption.
      * intros (v & Hv & R). destruct R as [v|v w c Hc R]; [left; exact Hv|]. right. exists c. split; [|exact R].
        apply in_flat_map. exists v. auto.
    + intros v Hv. apply in_flat_map in Hv. destruct Hv as (u & Hu & Hv). apply kid_height in Hv. specialize (H u Hu). lia.
Qed.
(** the names of a reached node are those of the start and more *)
Lemma reach_names v w : reach v w -> v = w \/ exists n rest, vi_names w = vi_names v ++ n :: rest.
Proof.
  induction 1 as [v|v w c Hc R IH]; [left; reflexivity|]. right. unfold kids in Hc. apply in_map_iff in Hc.
  destruct Hc as (x & <- & _). cbn [vi_names] in IH. destruct IH as [<- |(n & rest & ->)].
  - exists (v_name x), []. reflexivity.
  - exists (v_name x), (n :: rest). rewrite <- app_assoc. reflexivity.
Qed.
Lemma kid_cases v c : In c (kids v) -> exists x, In x (v_children (vi_node v)) /\ c = Visit (vi_names v ++ [v_name x]) (rcomp (vi_to_root v) (v_pose x)) x.
Proof. unfold kids. intros H. apply in_map_iff in H. destruct H as (x & <- & H). eauto. Qed.
Lemma drawable_kids v : drawable (vi_node v) -> forall c, In c (kids v) -> drawable (vi_node c).
Proof.
  intros D c Hc. apply kid_cases in Hc. destruct Hc as (x & Hx & ->). cbn [vi_node]. inversion D as [n p g cs P U N F E].
  apply F. rewrite <- E in Hx. exact Hx.
Qed.
Lemma drawable_name t : drawable t -> plain (v_name t).
Proof. intros [n p g cs P _ _ _]. exact P. Qed.
Lemma reach_plain v w : reach v w -> drawable (vi_node v) -> Forall plain (vi_names v) ->
  Forall plain (vi_names w) /\ drawable (vi_node w).
Proof.
  induction 1 as [v|v w c Hc R IH]; intros D F; [auto|]. pose proof (drawable_kids v D c Hc) as Dc.
  apply IH; [exact Dc|]. apply kid_cases in Hc. destruct Hc as (x & Hx & ->). cbn [vi_names vi_node] in *.
  apply Forall_app. split; [exact F|]. constructor; [apply drawable_name, Dc|constructor].
Qed.
Lemma same_name_same_child cs (a b : vnode) : NoDup (map v_name cs) -> In a cs -> In b cs -> v_name a = v_name b -> a = b.
Proof.
  induction cs as [|x cs IH]; [contradiction|]. cbn. intros N Ha Hb E. inversion N as [|y l Hn N']; subst.
  destruct Ha as [ -> |Ha], Hb as [ -> |Hb]; [reflexivity| | |auto].
  - exfalso. apply Hn. rewrite E. apply in_map, Hb.
  - exfalso. apply Hn. rewrite <- E. apply in_map, Ha.
Qed.
(** the names identify the node *)
Lemma reach_unique v a : reach v a -> forall b, reach v b -> drawable (vi_node v) -> vi_names a = vi_names b -> a = b.
Proof.
  induction 1 as [v|v a c Hc R IH]; intros b Rb D E.
  - destruct (reach_names _ _ Rb) as [ -> |(n & rest & E')]; [reflexivity|]. rewrite <- E in E'.
    apply (f_equal (@List.length _)) in E'. rewrite app_length in E'. cbn in E'. lia.
  - destruct Rb as [v|v b d Hd Rb].
    + destruct (reach_names v a) as [<-|(n & rest & E')]; [eapply reach_kid; eassumption|reflexivity|].
      rewrite E in E'. apply (f_equal (@List.length _)) in E'. rewrite app_length in E'. cbn in E'. lia.
    + assert (c = d); [|subst d; apply IH; [exact Rb|eapply drawable_kids; eassumption|exact E]].
      pose proof Hc as Hc'. pose proof Hd as Hd'. apply kid_cases in Hc', Hd'. destruct Hc' as (x & Hx & Ec), Hd' as (y & Hy & Ed).
      assert (X : x = y); [|subst; reflexivity].
      inversion D as [n p g cs P U N F En]. rewrite <- En in Hx, Hy. cbn [v_children] in Hx, Hy.
      apply (same_name_same_child cs); try assumption.
      assert (A : exists r, vi_names a = vi_names v ++ v_name x :: r).
      { destruct (reach_names _ _ R) as [<-|(m & r & ->)]; rewrite Ec; cbn [vi_names]; [exists []; reflexivity|]. exists (m :: r). rewrite <- app_assoc. reflexivity. }
      assert (B : exists r, vi_names b = vi_names v ++ v_name y :: r).
      { destruct (reach_names _ _ Rb) as [<-|(m & r & ->)]; rewrite Ed; cbn [vi_names]; [exists []; reflexivity|]. exists (m :: r). rewrite <- app_assoc. reflexivity. }
      destruct A as [ra A], B as [rb B]. rewrite A, B in E. apply app_inv_head in E. congruence.
Qed.

(** ** Positions *)
Lemma reach_occupied v w : reach v w -> forall g x, v_geo (vi_node w) = Some g -> inside g x ->
  exists y, occupied (vi_node v) y /\ to_point (vi_to_root w) x = to_point (vi_to_root v) y.
Proof.
  induction 1 as [v|v w c Hc R IH]; intros g x G I.
  - exists x. split; [|reflexivity]. destruct (vi_node v) as [n p g' cs]. cbn in G. subst g'. constructor. exact I.
  - destruct (IH g x G I) as (y & O & E). apply kid_cases in Hc. destruct Hc as (z & Hz & ->). cbn [vi_node vi_to_root] in *.
    exists (to_point (v_pose z) y). split.
    + destruct (vi_node v) as [n p g' cs]. constructor; assumption.
    + rewrite E. apply to_point_rcomp.
Qed.
Lemma occupied_reach t y : occupied t y -> forall v, vi_node v = t ->
  exists w g x, reach v w /\ v_geo (vi_node w) = Some g /\ inside g x /\ to_point (vi_to_root w) x = to_point (vi_to_root v) y.
Proof.
  induction 1 as [n p g cs x I|n p g cs c x Hc O IH]; intros v E.
  - exists v, g, x. repeat split; [constructor|rewrite E; reflexivity|exact I].
  - set (u := Visit (vi_names v ++ [v_name c]) (rcomp (vi_to_root v) (v_pose c)) c).
    destruct (IH u eq_refl) as (w & g' & x' & R & G & I & Ex). exists w, g', x'. split; [|split; [exact G|split; [exact I|]]].
    + apply reach_kid with u; [|exact R]. unfold kids, u. rewrite E. cbn [v_children]. apply in_map_iff. exists c. auto.
    + rewrite Ex. unfold u. cbn [vi_to_root]. apply to_point_rcomp.
Qed.

(** ** The page after drawing *)
Definition first (root : vnode) : visit := Visit [v_name root] rid root.
Lemma same_path_true a b : same_path a b = true <-> a = b.
Proof. unfold same_path. destruct (list_eq_dec string_dec a b); split; congruence. Qed.
Lemma in_put {A} k (a : A) l k' a' : In (k', a') (put k a l) <-> (k' = k /\ a' = a) \/ (k' <> k /\ In (k', a') l).
Proof.
  unfold put. cbn. rewrite filter_In. cbn. rewrite negb_true_iff. split.
  - intros [E|[H N]]; [injection E as <- <-; auto|]. right. split; [|exact H]. intros E.
    rewrite (proj2 (same_path_true k' k) E) in N. discriminate.
  - intros [[-> ->]|[N H]]; [auto|]. right. split; [exact H|]. destruct (same_path k' k) eqn:S; [|reflexivity].
    apply same_path_true in S. contradiction.
Qed.
Lemma find_put k (a : rigid) l k' : transform_at (put k a l) k' = if same_path k' k then a else transform_at l k'.
Proof.
  unfold transform_at, put. cbn [find fst]. destruct (same_path k' k) eqn:S.
  - apply same_path_true in S. subst k'. rewrite (proj2 (same_path_true k k) eq_refl). reflexivity.
  - assert (N : k' <> k) by (intros E; rewrite (proj2 (same_path_true k' k) E) in S; discriminate).
    destruct (same_path k k') eqn:S'; [apply same_path_true in S'; congruence|].
    induction l as [|[k1 a1] l IH]; [reflexivity|]. cbn [filter fst]. destruct (same_path k1 k) eqn:S1; cbn [negb].
    + rewrite IH. cbn [find fst]. destruct (same_path k1 k') eqn:S2; [|reflexivity].
      apply same_path_true in S1, S2. congruence.
    + cbn [find fst]. destruct (same_path k1 k'); [reflexivity|exact IH].
Qed.
Definition object_of (g : geometry) : object :=
  match g with Sphere r => OSphere r | Cylinder l r => OCylinder l r | Mesh ts => OMesh ts | Unsupported => OMesh [] end.
Definition shift (g : geometry) (t : rigid) : rigid := match g with Cylinder _ _ => cylinder_transform t | _ => t end.
Definition key (v : visit) : list string := match join (vi_names v) with Some s => [s] | None => [] end.
Record good (v : visit) : Prop := {
  good_names : Forall plain (vi_names v); good_long : (2 <= List.length (vi_names v))%nat;
  good_geo : v_geo (vi_node v) <> Some Unsupported }.
Lemma good_join v : good v -> exists s, join (vi_names v) = Some s /\ key v = [s] /\ address s = [s].
Proof.
  intros [F L _]. destruct (join_plain (vi_names v) F) as (s & E & Hs & _ & Hb); [destruct (vi_names v); cbn in L; [lia|discriminate]|].
  exists s. unfold key. rewrite E. split; [reflexivity|]. split; [reflexivity|]. apply address_plain; [exact Hs|].
  intros ->. specialize (Hb L). discriminate.
Qed.
Lemma good_key v w : good v -> good w -> key v = key w -> vi_names v = vi_names w.
Proof.
  intros Gv Gw E. destruct (good_join v Gv) as (s & J & K & _), (good_join w Gw) as (s' & J' & K' & _).
  apply join_inj; [apply Gv|apply Gw| | |congruence]; intros X; [pose proof (good_long v Gv) as L|pose proof (good_long w Gw) as L]; rewrite X in L; cbn in L; lia.
Qed.
Lemma add_good v p : good v -> add_node v p =
  (match v_geo (vi_node v) with
   | None => p
   | Some g => set_transform (key v) (shift g (vi_to_root v)) (set_object (key v) (object_of g) p) end, None).
Proof.
  intros G. destruct (good_join v G) as (s & J & K & A). unfold add_node. rewrite J. pose proof (good_geo v G) as U.
  destruct (v_geo (vi_node v)) as [g|]; [|reflexivity]. unfold add_geometry. rewrite A, K. destruct g; try reflexivity. contradiction.
Qed.
Lemma add_nodes_spec vs : forall p, (forall v, In v vs -> good v) ->
  (forall v w, In v vs -> In w vs -> key v = key w -> v = w) ->
  exists p', add_nodes vs p = (p', None) /\
  (forall k o, In (k, o) (objects p') <->
    (exists v g, In v vs /\ v_geo (vi_node v) = Some g /\ k = key v /\ o = object_of g) \/
    (In (k, o) (objects p) /\ ~ exists v g, In v vs /\ v_geo (vi_node v) = Some g /\ k = key v)) /\
  (forall v g, In v vs -> v_geo (vi_node v) = Some g -> transform_at (transforms p') (key v) = shift g (vi_to_root v)) /\
  (forall k, (forall v g, In v vs -> v_geo (vi_node v) = Some g -> key v <> k) -> transform_at (transforms p') k = transform_at (transforms p) k).
Proof.
  induction vs as [|v vs IH]; intros p G U.
  - exists p. split; [reflexivity|]. split; [|split; [intros v g []|reflexivity]].
    intros k o. split; [|intros [(v & g & [] & _)|[H _]]; exact H]. intros H. right. split; [exact H|]. intros (v & g & [] & _).
  - cbn [add_nodes]. rewrite (add_good v p) by (apply G; left; reflexivity).
    match goal with |- context [add_nodes vs ?q] => set (q1 := q) end.
    destruct (IH q1) as (p' & E & HO & HT & HR); [intros; apply G; right; assumption|intros; apply U; try right; assumption|].
    exists p'. split; [exact E|]. clear E IH.
    assert (Ho : forall k o, In (k, o) (objects q1) <-> (exists g, v_geo (vi_node v) = Some g /\ k = key v /\ o = object_of g) \/
       (In (k, o) (objects p) /\ ~ exists g, v_geo (vi_node v) = Some g /\ k = key v)).
    { intros k o. unfold q1. destruct (v_geo (vi_node v)) as [g|].
      - cbn [objects set_transform set_object]. rewrite in_put. split.
        + intros [[-> ->]|[N H]]; [left; exists g; auto|right]. split; [exact H|]. intros (g' & _ & ->). contradiction.
        + intros [(g' & E & -> & ->)|[H N]]; [left; injection E as <-; auto|]. right. split; [|exact H]. intros ->. apply N. exists g. auto.
      - split; [intros H; right; split; [exact H|intros (g & X & _); discriminate]|]. intros [(g & X & _)|[H _]]; [discriminate|exact H]. }
    assert (Ht : forall k, transform_at (transforms q1) k = match v_geo (vi_node v) with Some g => if same_path k (key v) then shift g (vi_to_root v) else transform_at (transforms p) k | None => transform_at (transforms p) k end).
    { intros k. unfold q1. destruct (v_geo (vi_node v)) as [g|]; [|reflexivity]. cbn [transforms set_transform set_object]. apply find_put. }
    clearbody q1. split; [|split].
    + intros k o. rewrite HO, Ho. split.
      * intros [(w & g & Hw & Gw & -> & ->)|[[(g & Gv & -> & ->)|[H N1]] N2]].
        -- left. exists w, g. repeat split; try assumption. right. exact Hw.
        -- left. exists v, g. repeat split; try assumption. left. reflexivity.
        -- right. split; [exact H|]. intros (w & g & [ <- |Hw] & Gw & ->); [apply N1; exists g; auto|apply N2; exists w, g; auto].
      * intros [(w & g & [ <- |Hw] & Gw & -> & ->)|[H N]].
        -- destruct (in_dec (fun a b : list string => list_eq_dec string_dec a b) (key v) (map key (filter (fun w => match v_geo (vi_node w) with Some _ => true | None => false end) vs))) as [I|I].
           ++ apply in_map_iff in I. destruct I as (w & Kw & I). apply filter_In in I. destruct I as [Iw _].
              assert (w = v) by (apply U; [right; exact Iw|left; reflexivity|exact Kw]). subst w. left. exists v, g. auto.
           ++ right. split; [left; exists g; auto|]. intros (w & g' & Hw & Gw' & Kw). apply I. apply in_map_iff. exists w. split; [auto|].
              apply filter_In. split; [exact Hw|]. rewrite Gw'. reflexivity.
        -- left. exists w, g. auto.
        -- right. split.
           ++ right. split; [exact H|]. intros (g & Gv & ->). apply N. exists v, g. repeat split; auto. left. reflexivity.
           ++ intros (w & g & Hw & Gw & ->). apply N. exists w, g. repeat split; auto. right. exact Hw.
    + intros w g [ <- |Hw] Gw; [|apply HT; assumption].
      destruct (in_dec (fun a b : list string => list_eq_dec string_dec a b) (key v) (map key (filter (fun w => match v_geo (vi_node w) with Some _ => true | None => false end) vs))) as [I|I].
      * apply in_map_iff in I. destruct I as (w & Kw & I). apply filter_In in I. destruct I as [Iw _].
        assert (w = v) by (apply U; [right; exact Iw|left; reflexivity|exact Kw]). subst w. apply HT; assumption.
      * rewrite HR, Ht, Gw, (proj2 (same_path_true _ _) eq_refl); [reflexivity|]. intros w g' Hw Gw' Kw. apply I. apply in_map_iff. exists w. split; [auto|].
        apply filter_In. split; [exact Hw|]. rewrite Gw'. reflexivity.
    + intros k N. rewrite HR by (intros w g Hw; apply N; right; exact Hw). rewrite Ht. destruct (v_geo (vi_node v)) as [g|] eqn:Gv; [|reflexivity].
      destruct (same_path k (key v)) eqn:S; [|reflexivity]. apply same_path_true in S. exfalso. apply (N v g); [left; reflexivity|exact Gv|auto].
Qed.

(** ** The nodes that are drawn *)
Lemma height_pos t : exists h, height t = S h.
Proof. destruct t; cbn. eauto. Qed.
Lemma level_tail root : tl (level_order root) = rows (pred (height root)) (kids (first root)).
Proof. unfold level_order, first. destruct (height_pos root) as [h ->]. cbn [rows tl List.app pred flat_map]. rewrite app_nil_r. reflexivity. Qed.
Lemma in_tail root w : In w (tl (level_order root)) <-> exists c, In c (kids (first root)) /\ reach c w.
Proof. rewrite level_tail. apply rows_spec. intros v Hv. apply kid_height in Hv. cbn [vi_node first] in Hv. lia. Qed.
Lemma tail_reach root w : In w (tl (level_order root)) -> reach (first root) w.
Proof. rewrite in_tail. intros (c & Hc & R). eapply reach_kid; eassumption. Qed.
Lemma tail_good root w : drawable root -> In w (tl (level_order root)) -> good w.
Proof.
  intros D H. pose proof (tail_reach root w H) as R.
  destruct (reach_plain _ _ R) as [F Dw]; [exact D|constructor; [apply drawable_name, D|constructor]|].
  constructor; [exact F| |].
  - apply in_tail in H. destruct H as (c & Hc & Rc). apply kid_cases in Hc. destruct Hc as (x & _ & ->).
    apply reach_names in Rc. cbn [vi_names first] in Rc. destruct Rc as [<-|(n & rest & ->)]; cbn; [lia|]. rewrite ?app_length. cbn. lia.
  - destruct Dw as [n p g cs _ U _ _]. exact U.
Qed.
Lemma tail_unique root v w : drawable root -> In v (tl (level_order root)) -> In w (tl (level_order root)) -> key v = key w -> v = w.
Proof.
  intros D Hv Hw K. apply reach_unique with (first root); try (apply tail_reach; assumption); [exact D|].
  apply good_key; try assumption; apply (tail_good root); assumption.
Qed.

(** where each named solid is *)
Inductive named_solid : vnode -> list (option string) -> Prop :=
| solid_here n p g cs : named_solid (VNode n p (Some g) cs) [n]
| solid_below n p g cs c ns : In c cs -> named_solid c ns -> named_solid (VNode n p g cs) (n :: ns).
Lemma named_reach t ns : named_solid t ns -> forall pre v, vi_node v = t -> vi_names v = pre ++ [v_name t] ->
  exists w g, reach v w /\ v_geo (vi_node w) = Some g /\ vi_names w = pre ++ ns.
Proof.
  induction 1 as [n p g cs|n p g cs c ns Hc N IH]; intros pre v E En.
  - exists v, g. split; [constructor|]. rewrite E. auto.
  - set (u := Visit (vi_names v ++ [v_name c]) (rcomp (vi_to_root v) (v_pose c)) c).
    destruct (IH (vi_names v) u eq_refl eq_refl) as (w & g' & R & G & Ew). exists w, g'. split; [|split; [exact G|]].
    + apply reach_kid with u; [|exact R]. unfold kids, u. rewrite E. apply in_map_iff. exists c. auto.
    + rewrite Ew, En. cbn [v_name]. rewrite <- app_assoc. reflexivity.
Qed.
Lemma reach_named v w : reach v w -> forall pre g, vi_names v = pre ++ [v_name (vi_node v)] -> v_geo (vi_node w) = Some g ->
  exists ns, named_solid (vi_node v) ns /\ vi_names w = pre ++ ns.
Proof.
  induction 1 as [v|v w c Hc R IH]; intros pre g E G.
  - exists [v_name (vi_node v)]. split; [|exact E]. destruct (vi_node v) as [n p g' cs]. cbn in *. subst g'. constructor.
  - apply kid_cases in Hc. destruct Hc as (x & Hx & ->). cbn [vi_node vi_names] in *.
    destruct (IH (vi_names v) g eq_refl G) as (ns & N & ->). exists (v_name (vi_node v) :: ns). split.
    + destruct (vi_node v) as [n p g' cs]. cbn. econstructor; eassumption.
    + rewrite E, <- app_assoc. reflexivity.
Qed.

(** the objects of a page all belong to named solids of [root] below the top *)
Definition belongs (root : vnode) (p : page) : Prop :=
  (forall k o, In (k, o) (objects p) -> exists ns n s, named_solid root (v_name root :: n :: ns) /\ join (v_name root :: n :: ns) = Some s /\ k = [s]) /\
  transform_at (transforms p) [] = rid.

Lemma covers_shift g t q : g <> Unsupported ->
  (exists x, covers (object_of g) x /\ q = to_point (shift g t) x) <-> (exists x, inside g x /\ q = to_point t x).
Proof.
  intros U. destruct g as [r|l r|ts|]; [reflexivity| |reflexivity|contradiction]. cbn [covers object_of shift inside].
  pose proof (C88_cylinder_drawn_in_place t l r q) as H. split.
  - intros (x & (Hy & Hr) & ->). destruct (proj1 H) as (y & h1 & h2 & h3); [exists x; auto|]. exists y. auto.
  - intros (x & (Hy & Hr) & ->). destruct (proj2 H) as (y & h1 & h2 & h3); [exists x; auto|]. exists y. auto.
Qed.

Lemma render_spec root p sr : drawable root -> belongs root p ->
  exists p', render sr root p = (p', None) /\ belongs root p' /\
  (forall k o, In (k, o) (objects p') <-> exists v g, In v (tl (level_order root)) /\ v_geo (vi_node v) = Some g /\ k = key v /\ o = object_of g) /\
  (forall v g, In v (tl (level_order root)) -> v_geo (vi_node v) = Some g -> world (transforms p') [] (key v) = shift g (vi_to_root v)).
Proof.
  intros D [B1 B2]. destruct (add_nodes_spec (tl (level_order root)) p) as (p' & E & HO & HT & HR);
    [intros v; apply tail_good, D|intros v w; apply tail_unique, D|].
  exists p'. split; [exact E|].
  assert (T0 : transform_at (transforms p') [] = rid).
  { rewrite HR; [exact B2|]. intros v g Hv _. destruct (good_join v (tail_good root v D Hv)) as (s & _ & -> & _). discriminate. }
  assert (O : forall k o, In (k, o) (objects p') <-> exists v g, In v (tl (level_order root)) /\ v_geo (vi_node v) = Some g /\ k = key v /\ o = object_of g).
  { intros k o. rewrite HO. split; [|auto]. intros [H|[H N]]; [exact H|]. exfalso. apply N.
    destruct (B1 k o H) as (ns & n & s & NS & J & ->). inversion NS as [|n' p0 g0 cs c ns' Hc NS' E1 E2]. subst ns'. clear NS.
    set (u := Visit [v_name root; v_name c] (rcomp rid (v_pose c)) c).
    assert (Hu : In u (kids (first root))).
    { unfold kids, first. cbn [vi_node vi_names vi_to_root]. rewrite <- E1. cbn [v_children]. apply in_map_iff. exists c. rewrite E1. auto. }
    destruct (named_reach c _ NS' [v_name root] u eq_refl eq_refl) as (w & g & R & G & Ew). exists w, g.
    rewrite ?E1. split; [apply in_tail; exists u; auto|]. split; [exact G|]. unfold key. rewrite Ew.
    change ([v_name root] ++ n :: ns) with (v_name root :: n :: ns). rewrite J. reflexivity. }
  split; [split; [|exact T0]|split; [exact O|]].
  - intros k o H. apply O in H. destruct H as (v & g & Hv & G & -> & _). pose proof (tail_good root v D Hv) as Gv.
    destruct (good_join v Gv) as (s & J & K & _). destruct (reach_named _ _ (tail_reach root v Hv) [] g eq_refl G) as (ns & NS & E').
    cbn [List.app vi_node first] in NS, E'. pose proof (good_long v Gv) as L. rewrite E' in L.
    inversion NS as [n p0 g0 cs E1 E2|n p0 g0 cs c ns' Hc NS' E1 E2].
    + rewrite <- E2 in L. cbn in L. lia.
    + destruct ns' as [|m ns']; [inversion NS'|]. rewrite E1. exists ns', m, s. rewrite <- E1 in *.
      cbn [v_name]. rewrite E2. split; [exact NS|]. rewrite <- E'. rewrite K. auto.
  - intros v g Hv G. destruct (good_join v (tail_good root v D Hv)) as (s & _ & K & _). specialize (HT v g Hv G). rewrite K in *.
    cbn [world List.app]. rewrite T0, HT. apply rcomp_id_l.
Qed.
Lemma render_seen root p sr : drawable root -> belongs root p ->
  exists p', render sr root p = (p', None) /\ belongs root p' /\ forall q, seen p' q <-> in_scene root q.
Proof.
  intros D B. destruct (render_spec root p sr D B) as (p' & E & B' & HO & HW). exists p'. split; [exact E|]. split; [exact B'|].
  assert (U : forall v g, In v (tl (level_order root)) -> v_geo (vi_node v) = Some g -> g <> Unsupported).
  { intros v g Hv G ->. exact (good_geo v (tail_good root v D Hv) G). }
  intros q. split.
  - intros (k & o & x & H & C & ->). apply HO in H. destruct H as (v & g & Hv & G & -> & ->).
    rewrite (HW v g Hv G). destruct (proj1 (covers_shift g (vi_to_root v) (to_point (shift g (vi_to_root v)) x) (U v g Hv G))) as (y & I & Ey); [eauto|].
    rewrite Ey. apply in_tail in Hv. destruct Hv as (c & Hc & R). destruct (reach_occupied c v R g y G I) as (z & Oz & Ez). rewrite Ez.
    apply kid_cases in Hc. destruct Hc as (c0 & Hc0 & ->). cbn [vi_node vi_to_root first] in *. exists c0, z.
    split; [exact Hc0|]. split; [exact Oz|]. rewrite rcomp_id_l. reflexivity.
  - intros (c & x & Hc & Oc & ->). set (u := Visit [v_name root; v_name c] (rcomp rid (v_pose c)) c).
    assert (Hu : In u (kids (first root))) by (unfold kids, first; cbn [vi_node vi_names vi_to_root]; apply in_map_iff; exists c; auto).
    destruct (occupied_reach c x Oc u eq_refl) as (w & g & y & R & G & I & Ey).
    assert (Hw : In w (tl (level_order root))) by (apply in_tail; exists u; auto).
    destruct (proj2 (covers_shift g (vi_to_root w) (to_point (vi_to_root w) y) (U w g Hw G))) as (z & C & Ez); [eauto|].
    exists (key w), (object_of g), z. split; [apply HO; exists w, g; auto|]. split; [exact C|]. rewrite (HW w g Hw G), <- Ez, Ey.
    unfold u. cbn [vi_to_root]. rewrite rcomp_id_l. reflexivity.
Qed.
Lemma belongs_blank root : belongs root blank.
Proof. split; [intros k o []|reflexivity]. Qed.

(** A scene in which names are given, free of "|" and "/" and different for siblings, is
    drawn on an empty page without an error, and the points seen are the points of the
    solids below the root. *)
Theorem C136_drawn_partial : forall root show_root, drawable root ->
  exists p, render show_root root blank = (p, None) /\ forall q, seen p q <-> in_scene root q.
Proof. intros root sr D. destruct (render_seen root blank sr D (belongs_blank root)) as (p & E & _ & H). eauto. Qed.
Print Assumptions C136_drawn_partial.
(** The same when nodes with the same names were drawn before, in other places and with
    other geometries: nothing of the old picture is left. *)
Theorem C136_again_partial : forall before after p show_root, drawable before -> drawable after ->
  (forall ns, named_solid before ns -> named_solid after ns) -> v_name before = v_name after ->
  render show_root before blank = (p, None) ->
  exists p', render show_root after p = (p', None) /\ forall q, seen p' q <-> in_scene after q.
Proof.
  intros a b p sr Da Db S N R. destruct (render_seen a blank sr Da (belongs_blank a)) as (p1 & E & B & _).
  rewrite R in E. injection E as <-. destruct (render_seen b p sr Db) as (p' & E & _ & H); [|eauto].
  destruct B as [B1 B2]. split; [|exact B2]. intros k o I. destruct (B1 k o I) as (ns & n & s & NS & J & K).
  exists ns, n, s. rewrite <- N. auto.
Qed.
Print Assumptions C136_again_partial.

(** ** Each solid once *)
(** the number of geometries in a tree *)
Fixpoint solids (t : vnode) : nat :=
  match t with VNode _ _ g cs => ((match g with Some _ => 1 | None => 0 end) + list_sum (map solids cs))%nat end.
Definition has_geo (v : visit) : bool := match v_geo (vi_node v) with Some _ => true | None => false end.
Definition count (vs : list visit) : nat := List.length (filter has_geo vs).
Lemma count_app a b : count (a ++ b) = (count a + count b)%nat.
Proof. unfold count. rewrite filter_app, app_length. reflexivity. Qed.
Lemma solids_visit v : solids (vi_node v) = (count [v] + list_sum (map (fun c => solids (vi_node c)) (kids v)))%nat.
Proof.
  unfold count, kids, has_geo. rewrite map_map. cbn [vi_node filter]. destruct (vi_node v) as [n p g cs]. cbn [solids v_geo v_children].
  destruct g; reflexivity.
Qed.
Lemma rows_count fuel : forall row, (forall v, In v row -> (height (vi_node v) <= fuel)%nat) ->
  count (rows fuel row) = list_sum (map (fun v => solids (vi_node v)) row).
Proof.
  induction fuel as [|fuel IH]; intros row H.
  - destruct row as [|v row]; [reflexivity|]. specialize (H v (or_introl eq_refl)). destruct (vi_node v); cbn in H; lia.
  - cbn [rows]. destruct row as [|a row]; [reflexivity|]. set (r := a :: row) in *. clearbody r. rewrite count_app, IH.
    + clear. induction r as [|v r IH]; [reflexivity|]. cbn [flat_map map]. rewrite map_app, list_sum_app.
      change (v :: r) with ([v] ++ r). rewrite count_app.
      change (list_sum (solids (vi_node v) :: map (fun v0 => solids (vi_node v0)) r)) with (solids (vi_node v) + list_sum (map (fun v0 => solids (vi_node v0)) r))%nat.
      rewrite (solids_visit v). lia.
    + intros v Hv. apply in_flat_map in Hv. destruct Hv as (u & Hu & Hv). apply kid_height in Hv. specialize (H u Hu). lia.
Qed.
Lemma nodup_app {A} (a b : list A) : NoDup a -> NoDup b -> (forall x, In x a -> ~ In x b) -> NoDup (a ++ b).
Proof.
  induction 1 as [|x a Hx Ha IH]; intros Hb D; [exact Hb|]. cbn. constructor.
  - rewrite in_app_iff. intros [H|H]; [contradiction|]. exact (D x (or_introl eq_refl) H).
  - apply IH; [exact Hb|]. intros y Hy. apply D. right. exact Hy.
Qed.
Lemma kids_nodup v : drawable (vi_node v) -> NoDup (map vi_names (kids v)).
Proof.
  intros D. unfold kids. rewrite map_map. cbn [vi_names]. inversion D as [n p g cs P U N F E]. cbn [v_children].
  rewrite <- (map_map v_name (fun x => vi_names v ++ [x])). clear D E P U F. induction N as [|x l H N IH]; [constructor|].
  cbn. constructor; [|exact IH]. intros I. apply in_map_iff in I. destruct I as (y & E & I). apply app_inv_head in E. injection E as ->. contradiction.
Qed.
Lemma rows_nodup fuel : forall row n, (forall v, In v row -> drawable (vi_node v) /\ List.length (vi_names v) = n) ->
  NoDup (map vi_names row) -> NoDup (map vi_names (rows fuel row)) /\ forall v, In v (rows fuel row) -> (n <= List.length (vi_names v))%nat.
Proof.
  induction fuel as [|fuel IH]; intros row n H N; cbn [rows]; [split; [constructor|intros v []]|].
  destruct row as [|a row]; [split; [constructor|intros v []]|]. set (r := a :: row) in *. clearbody r.
  destruct (IH (flat_map kids r) (S n)) as [N2 L2].
  - intros v Hv. apply in_flat_map in Hv. destruct Hv as (u & Hu & Hv). destruct (H u Hu) as [Du Lu]. split; [eapply drawable_kids; eassumption|].
    apply kid_cases in Hv. destruct Hv as (x & _ & ->). cbn [vi_names]. rewrite app_length. cbn. lia.
  - clear IH. induction r as [|v r IHr]; [constructor|]. cbn [flat_map]. rewrite map_app. cbn [map] in N. inversion N as [|y l Hn N']; subst y l.
    apply nodup_app.
    + apply kids_nodup. apply (H v). left. reflexivity.
    + apply IHr; [intros; apply H; right; assumption|exact N'].
    + intros ns I1 I2. apply in_map_iff in I1, I2. destruct I1 as (c & <- & Hc), I2 as (d & E & Hd).
      apply in_flat_map in Hd. destruct Hd as (u & Hu & Hd). apply kid_cases in Hc, Hd. destruct Hc as (x & _ & ->), Hd as (y & _ & ->).
      cbn [vi_names] in E. apply app_inj_tail in E. destruct E as [E _]. apply Hn. rewrite <- E. apply in_map, Hu.
  - split.
    + rewrite map_app. apply nodup_app; [exact N|exact N2|]. intros ns I1 I2. apply in_map_iff in I1, I2.
      destruct I1 as (c & <- & Hc), I2 as (d & E & Hd). specialize (L2 d Hd). destruct (H c Hc) as [_ L]. rewrite E in L2. lia.
    + intros v Hv. apply in_app_iff in Hv. destruct Hv as [Hv|Hv]; [destruct (H v Hv); lia|]. specialize (L2 v Hv). lia.
Qed.
Lemma put_new {A} k (a : A) l : ~ In k (map fst l) -> List.length (put k a l) = S (List.length l).
Proof.
  intros H. unfold put. cbn. f_equal. induction l as [|[k1 a1] l IH]; [reflexivity|]. cbn [map fst] in H. cbn [filter fst].
  destruct (same_path k1 k) eqn:S; [apply same_path_true in S; subst; exfalso; apply H; left; reflexivity|]. cbn. f_equal. apply IH.
  intros I. apply H. right. exact I.
Qed.
Lemma put_keys {A} k (a : A) l x : In x (map fst (put k a l)) -> x = k \/ In x (map fst l).
Proof.
  intros H. apply in_map_iff in H. destruct H as ([k1 a1] & E & H). cbn in E. subst k1. apply in_put in H. destruct H as [[-> _]|[_ H]]; [auto|].
  right. apply in_map_iff. exists (x, a1). auto.
Qed.
Lemma add_nodes_count vs : forall p, (forall v, In v vs -> good v) -> NoDup (map vi_names vs) ->
  (forall v, In v vs -> ~ In (key v) (map fst (objects p))) ->
  List.length (objects (fst (add_nodes vs p))) = (List.length (objects p) + count vs)%nat.
Proof.
  induction vs as [|v vs IH]; intros p G N K; [cbn; lia|]. cbn [add_nodes]. rewrite (add_good v p) by (apply G; left; reflexivity).
  cbn [map] in N. inversion N as [|y l Hn N']; subst y l. change (v :: vs) with ([v] ++ vs). rewrite count_app. unfold count at 1. cbn [filter].
  unfold has_geo at 1. destruct (v_geo (vi_node v)) as [g|] eqn:Gv.
  - rewrite IH.
    + cbn [objects set_transform set_object]. rewrite put_new by (apply K; left; reflexivity). cbn. lia.
    + intros w Hw. apply G. right. exact Hw.
    + exact N'.
    + intros w Hw I. cbn [objects set_transform set_object] in I. apply put_keys in I. destruct I as [E|I].
      * apply good_key in E; [|apply G; right; exact Hw|apply G; left; reflexivity]. apply Hn. rewrite <- E. apply in_map, Hw.
      * exact (K w (or_intror Hw) I).
  - rewrite IH; [cbn; lia|intros; apply G; right; assumption|exact N'|intros w Hw; apply K; right; exact Hw].
Qed.
(** In such a scene every solid below the root has its own object on the page. *)
Theorem C136_once_partial : forall root show_root p, drawable root -> render show_root root blank = (p, None) ->
  List.length (objects p) = list_sum (map solids (v_children root)).
Proof.
  intros root sr p D R. unfold render in R. pose proof (add_nodes_count (tl (level_order root)) blank) as H.
  rewrite R in H. cbn [fst objects blank List.length Nat.add] in H. rewrite H.
  - rewrite level_tail, rows_count.
    + unfold kids. rewrite map_map. reflexivity.
    + intros v Hv. apply kid_height in Hv. cbn [vi_node first] in Hv. lia.
  - intros v. apply tail_good, D.
  - rewrite level_tail. apply (rows_nodup _ _ 2%nat); [|apply kids_nodup, D].
    intros v Hv. split; [apply (drawable_kids (first root)); assumption|]. apply kid_cases in Hv. destruct Hv as (x & _ & ->). reflexivity.
  - intros v _ [].
Qed.
Print Assumptions C136_once_partial.

(** ** Where it fails *)
Definition at_x (x : R) : rigid := Rigid mid (V x 0 0).
Definition ball (name : string) (x : R) : vnode := VNode (Some name) (at_x x) (Some (Sphere 1)) [].
Definition world_of (cs : list vnode) : vnode := VNode (Some "world"%string) rid (Some (Sphere 100)) cs.
Lemma to_at x a b c : to_point (at_x x) (V a b c) = V (a + x) b c.
Proof. unfold at_x, to_point, mvec, mid, dot, vadd. cbn. f_equal; ring. Qed.
Lemma ball_in name x cs : In (ball name x) cs -> in_scene (world_of cs) (V x 0 0).
Proof.
  intros H. exists (ball name x), (V 0 0 0). split; [exact H|]. split; [constructor; cbn; split; lra|]. cbn [v_pose ball]. rewrite to_at.
  f_equal. lra.
Qed.
Lemma far_ball k x y : covers (OSphere 1) y -> to_point (at_x k) y = V x 0 0 -> (x - k) * (x - k) <= 1.
Proof.
  intros C E. destruct y as [a b c]. rewrite to_at in E. injection E as E1 E2 E3. cbn in C. destruct C as [_ C]. subst. nra.
Qed.
(** Of two children with the same name only the second is shown. *)
Theorem C136_same_name_refuted : exists root, v_children root = [ball "dye" 5; ball "dye" (-5)] /\
  exists p, render false root blank = (p, None) /\ in_scene root (V 5 0 0) /\ ~ seen p (V 5 0 0).
Proof.
  exists (world_of [ball "dye" 5; ball "dye" (-5)]). split; [reflexivity|]. eexists. split; [reflexivity|].
  split; [apply (ball_in "dye" 5); left; reflexivity|]. intros (k & o & y & H & C & E). cbn in H. destruct H as [H|[]].
  injection H as <- <-. cbn -[to_point] in E. unfold transform_at in E. cbn [find same_path fst] in E.
  symmetry in E. rewrite !rcomp_id_l in E. apply (far_ball _ _ _ C) in E. lra.
Qed.
Print Assumptions C136_same_name_refuted.
(** A name with a "/" moves the object with the node named by the first part. *)
Theorem C136_slash_refuted : exists root, v_children root = [ball "cell" 5; ball "cell/back" 20] /\
  exists p, render false root blank = (p, None) /\ in_scene root (V 20 0 0) /\ ~ seen p (V 20 0 0) /\ seen p (V 25 0 0).
Proof.
  exists (world_of [ball "cell" 5; ball "cell/back" 20]). split; [reflexivity|]. eexists. split; [reflexivity|].
  split; [apply (ball_in "cell/back" 20); right; left; reflexivity|]. split.
  - intros (k & o & y & H & C & E). cbn in H. destruct H as [H|[H|[]]]; injection H as <- <-; cbn -[to_point] in E; unfold transform_at in E;
      cbn [find same_path fst] in E; symmetry in E; rewrite !rcomp_id_l in E.
    + rewrite to_point_rcomp in E. destruct y as [a b c]. rewrite !to_at in E. injection E as E1 E2 E3. cbn in C. destruct C as [_ C]. nra.
    + apply (far_ball _ _ _ C) in E. lra.
  - exists ["world | cell"; "back"]%string, (OSphere 1), (V 0 0 0). split; [cbn; auto|]. split; [cbn; split; lra|].
    cbn -[to_point]. unfold transform_at. cbn [find same_path fst]. rewrite !rcomp_id_l, to_point_rcomp, !to_at. f_equal; lra.
Qed.
Print Assumptions C136_slash_refuted.
(** An empty part leads back to the top: of "left//lens" and "right//lens" only the second is shown. *)
Theorem C136_double_slash_refuted : exists root, v_children root = [ball "left//lens" 5; ball "right//lens" (-5)] /\
  exists p, render false root blank = (p, None) /\ in_scene root (V 5 0 0) /\ ~ seen p (V 5 0 0).
Proof.
  exists (world_of [ball "left//lens" 5; ball "right//lens" (-5)]). split; [reflexivity|]. eexists. split; [reflexivity|].
  split; [apply (ball_in "left//lens" 5); left; reflexivity|]. intros (k & o & y & H & C & E). cbn in H. destruct H as [H|[]].
  injection H as <- <-. cbn -[to_point] in E. unfold transform_at in E. cbn [find same_path fst] in E.
  symmetry in E. rewrite !rcomp_id_l in E. apply (far_ball _ _ _ C) in E. lra.
Qed.
Print Assumptions C136_double_slash_refuted.
(** A node without a name (the default) ends the drawing with an error, even if it has no
    geometry; what comes after it is not drawn. *)
Theorem C136_unnamed_refuted : exists root, v_children root = [VNode None rid None []; ball "dye" 5] /\
  render false root blank = (blank, Some ExType) /\ in_scene root (V 5 0 0).
Proof.
  exists (world_of [VNode None rid None []; ball "dye" 5]). split; [reflexivity|]. split; [reflexivity|].
  apply (ball_in "dye" 5). right. left. reflexivity.
Qed.
Print Assumptions C136_unnamed_refuted.
(** The root is not drawn when asked for. *)
Theorem C136_root_refuted : exists root, drawable root /\ v_geo root = Some (Sphere 100) /\ render true root blank = (blank, None).
Proof.
  exists (world_of []). split; [|split; reflexivity]. constructor; [exists "world"%string; repeat split|discriminate|constructor|intros c []].
Qed.
Print Assumptions C136_root_refuted.
(** A node that was taken out of the scene is still shown after the scene is drawn again. *)
Theorem C136_left_over_refuted : exists before after p p', drawable before /\ drawable after /\
  render false before blank = (p, None) /\ render false after p = (p', None) /\ seen p' (V 5 0 0) /\ ~ in_scene after (V 5 0 0).
Proof.
  exists (world_of [ball "dye" 5]), (world_of []). eexists. eexists.
  assert (W : forall cs, NoDup (map v_name cs) -> (forall c, In c cs -> drawable c) -> drawable (world_of cs)).
  { intros cs N F. constructor; [exists "world"%string; repeat split|discriminate|exact N|exact F]. }
  split; [apply W; [repeat constructor; intros []|]|]. { intros c [<-|[]]. constructor; [exists "dye"%string; repeat split|discriminate|constructor|intros c []]. }
  split; [apply W; [constructor|intros c []]|]. split; [reflexivity|]. split; [reflexivity|]. split.
  - exists ["world | dye"%string], (OSphere 1), (V 0 0 0). split; [cbn; auto|]. split; [cbn; split; lra|].
    cbn -[to_point]. unfold transform_at. cbn [find same_path fst]. rewrite !rcomp_id_l, !to_at. f_equal; lra.
  - intros (c & x & [] & _).
Qed.
Print Assumptions C136_left_over_refuted.

(** A concentrator with a solar cell below it: a mesh, a cylinder turned on its side and a
    sphere inside another node. *)
Definition demo : vnode := world_of
  [VNode (Some "plate"%string) (at_x 1) (Some (Mesh [(V 0 0 0, V 1 0 0, V 0 1 0)])) [VNode (Some "bubble"%string) (at_x 2) (Some (Sphere (1/10))) []];
   VNode (Some "rod"%string) rid (Some (Cylinder 10 1)) []; VNode (Some "light"%string) (at_x 9) None []].
Example C136_example : drawable demo /\ List.length (objects (fst (render false demo blank))) = 3%nat /\
  in_scene demo (V 3 0 0) /\ in_scene demo (V 0 0 5) /\ ~ in_scene demo (V 9 0 0).
Proof.
  assert (P : forall s, has_char bar s = false -> has_char slash s = false -> plain (Some s)) by (intros s; exists s; auto).
  split; [|split; [reflexivity|split; [|split]]].
  - constructor; [apply P; reflexivity|discriminate|repeat constructor; cbn; intuition discriminate|].
    intros c [<-|[<-|[<-|[]]]]; (constructor; [apply P; reflexivity|discriminate|repeat constructor; cbn; intuition discriminate|]); cbn.
    + intros c [<-|[]]. constructor; [apply P; reflexivity|discriminate|constructor|intros c []].
    + intros c [].
    + intros c [].
  - exists (nth 0 (v_children demo) demo), (V 2 0 0). split; [left; reflexivity|]. split.
    + cbn. replace (V 2 0 0) with (to_point (at_x 2) (V 0 0 0)) by (rewrite to_at; f_equal; lra).
      apply (occ_below _ _ _ _ (VNode (Some "bubble"%string) (at_x 2) (Some (Sphere (1/10))) [])); [left; reflexivity|]. constructor. cbn. split; lra.
    + cbn [nth v_children demo world_of v_pose]. rewrite to_at. f_equal. lra.
  - exists (nth 1 (v_children demo) demo), (V 0 0 5). split; [right; left; reflexivity|]. split; [constructor; cbn; split; lra|].
    cbn [nth v_children demo world_of v_pose]. symmetry. apply to_point_rid.
  - intros (c & x & H & O & E). destruct H as [<-|[<-|[<-|[]]]]; cbn [v_pose] in E; inversion O as [n p g cs y I|n p g cs d y Hd Od]; subst.
    + cbn in I. destruct I as (t & [<-|[]] & u & v & w & Hu & Hv & Hw & S & ->). cbn in E. unfold at_x, to_point, mvec, mid, dot, vadd, vscale in E. cbn in E.
      injection E as E1 E2 E3. lra.
    + destruct Hd as [<-|[]]. cbn [v_pose] in E. inversion Od as [n p g cs z I|n p g cs d' z Hd' _]; subst; [|destruct Hd'].
      cbn in I. destruct I as [_ I]. destruct y as [a b c]. rewrite !to_at in E. injection E as E1 E2 E3. cbn in I. nra.
    + cbn in I. rewrite to_point_rid in E. subst x. cbn in I. lra.
    + destruct Hd.
    + destruct Hd.
Qed.
