(** C98: moving a node in the viewport. *)
From Coq Require Import Reals Lra Lia ZArith List Bool Arith String.
From Verif Require Import Base Vec TransformModel TransformProofs TransformProps SpecModel SpecProofs SpecProps LiveModel LiveProofs PlaceModel.
Import ListNotations.
Open Scope list_scope.
Open Scope nat_scope.
Open Scope string_scope.

(** ** Poses *)
Lemma look_at_elsewhere t t2 b w t1 : look_at t b w = Some t1 -> rot (pose t) = rot (pose t2) -> loc t2 = tra (pose t2) ->
  exists t3, look_at t2 b w = Some t3 /\ rot (pose t3) = rot (pose t1) /\ tra (pose t3) = tra (pose t2).
Proof.
  intros E Er El.
  assert (R : forall a x t1, rotate t a x = Some t1 -> exists t3, rotate t2 a x = Some t3 /\ rot (pose t3) = rot (pose t1) /\ tra (pose t3) = tra (pose t2)).
  { intros a x t1' H. unfold rotate in *. destruct (rotation_matrix a x (loc t2)) as [m2|] eqn:M2.
    - destruct (rotation_matrix a x (loc t)) as [m|] eqn:M1; [|discriminate]. injection H as <-. eexists. split; [reflexivity|].
      pose proof (rotation_matrix_spec _ _ _ _ M2) as (_ & _ & P & _). split.
      + cbn [pose rcomp rot]. unfold rotation_matrix in *. destruct (unit_vector x); [|discriminate]. injection M1 as <-. injection M2 as <-. cbn [rot]. now rewrite Er.
      + cbn [pose rcomp tra]. rewrite <- El. exact P.
    - exfalso. unfold rotation_matrix in *. destruct (unit_vector x); discriminate. }
  unfold look_at in *. destruct (OpticsModel.np_close (dot zaxis b) (-1)%R); [now apply R|]. destruct (rotation_from_matrix (look_matrix b) w). now apply R.
Qed.
Lemma place_wf eig s t : place_node eig s = Some t -> wf_rigid (pose t).
Proof.
  unfold place_node. intros H.
  assert (W0 : wf_rigid (pose (tf_init None))) by apply orthogonal_id.
  set (l := match ns_location s with None | Some [] => Some (tf_init None) | Some l => match vec_of l with Some v => Some (set_location (tf_init None) v false) | None => None end end) in H.
  assert (Wl : forall t, l = Some t -> wf_rigid (pose t)).
  { intros t0 E. unfold l in E. destruct (ns_location s) as [[|x r]|]; [injection E as <-; exact W0| |injection E as <-; exact W0].
    destruct (vec_of (x :: r)); [injection E as <-; apply orthogonal_id|discriminate]. }
  clearbody l. destruct l as [t0|]; [|discriminate]. specialize (Wl t0 eq_refl).
  destruct (ns_direction s) as [[|x r]|]; try (injection H as <-; exact Wl).
  destruct (vec_of (x :: r)) as [b|]; [|discriminate]. exact (apply_op_rigid t0 (LookAt b (eig b)) t H I Wl).
Qed.
Definition relocate (n : node_spec) (v : vec) : node_spec := NodeSpec (ns_body n) (ns_parent n) (Some (coords v)) (ns_direction n) (ns_record n).
Lemma place_relocate eig s t v : place_node eig s = Some t ->
  exists t', place_node eig (relocate s v) = Some t' /\ rot (pose t') = rot (pose t) /\ tra (pose t') = v.
Proof.
  unfold place_node. cbn [relocate ns_location ns_direction coords vec_of]. intros H.
  replace (V (vx v) (vy v) (vz v)) with v by (destruct v; reflexivity).
  set (l := match ns_location s with None | Some [] => Some (tf_init None) | Some l => match vec_of l with Some v => Some (set_location (tf_init None) v false) | None => None end end) in H.
  assert (Wl : forall t, l = Some t -> rot (pose t) = mid).
  { intros t0 E. unfold l in E. destruct (ns_location s) as [[|x r]|]; try (injection E as <-; reflexivity).
    destruct (vec_of (x :: r)); [injection E as <-; reflexivity|discriminate]. }
  clearbody l. destruct l as [t0|]; [|discriminate]. specialize (Wl t0 eq_refl).
  destruct (ns_direction s) as [[|x r]|].
  - injection H as <-. eexists. split; [reflexivity|]. split; [symmetry; exact Wl|reflexivity].
  - destruct (vec_of (x :: r)) as [b|]; [|discriminate]. apply (look_at_elsewhere t0 (set_location (tf_init None) v false)) in H; [|exact Wl|reflexivity]. exact H.
  - injection H as <-. eexists. split; [reflexivity|]. split; [symmetry; exact Wl|reflexivity].
Qed.

(** ** Numbering *)
Lemma index_nth k l : In k l -> nth (index k l) l "" = k.
Proof.
  induction l as [|x l IH]; [intros []|]. cbn [index]. destruct (String.eqb_spec x k) as [E|N]; intros H; cbn [nth].
  - exact E.
  - apply IH. destruct H; [contradiction|assumption].
Qed.
Lemma index_inj a b l : In a l -> In b l -> index a l = index b l -> a = b.
Proof. intros Ha Hb E. rewrite <- (index_nth a l Ha), <- (index_nth b l Hb). now rewrite E. Qed.

(** ** Documents *)
Lemma put_map {A B} (f : string * A -> B) k (v v0 : A) (d : dict A) : get k d = Some v0 -> f (k, v) = f (k, v0) -> map f (put k v d) = map f d.
Proof.
  intros G E. induction d as [|[j u] d IH]; [discriminate|]. cbn [get put] in *. destruct (String.eqb_spec j k) as [->|N].
  - injection G as ->. cbn [map]. now rewrite E.
  - cbn [map]. f_equal. now apply IH.
Qed.
Lemma put_map_opt {A B} (f : string * A -> option B) k (v v0 : A) (d : dict A) : get k d = Some v0 -> f (k, v) = f (k, v0) -> map_opt f (put k v d) = map_opt f d.
Proof.
  intros G E. induction d as [|[j u] d IH]; [discriminate|]. cbn [get put] in *. destruct (String.eqb_spec j k) as [->|N].
  - injection G as ->. cbn [map_opt]. now rewrite E.
  - cbn [map_opt]. now rewrite IH.
Qed.
Lemma put_fold {A B} (f : B -> string * A -> B) k (v v0 : A) (d : dict A) : get k d = Some v0 -> (forall b, f b (k, v) = f b (k, v0)) ->
  forall b, fold_left f (put k v d) b = fold_left f d b.
Proof.
  intros G E. induction d as [|[j u] d IH]; [discriminate|]. cbn [get put] in *. intros b. destruct (String.eqb_spec j k) as [->|N].
  - injection G as ->. cbn [fold_left]. now rewrite E.
  - cbn [fold_left]. now apply IH.
Qed.
Lemma get_map_opt {A B} (f : A -> option B) (d : dict A) ys :
  map_opt (fun '(k, s) => match f s with Some t => Some (k, t) | None => None end) d = Some ys ->
  keys ys = keys d /\ forall k, get k ys = match get k d with Some s => f s | None => None end.
Proof.
  revert ys. induction d as [|[j s] d IH]; intros ys H; cbn [map_opt] in H.
  - injection H as <-. split; reflexivity.
  - destruct (f s) as [t|] eqn:F; [|discriminate]. destruct (map_opt _ d) as [r|] eqn:M; [|discriminate]. injection H as <-.
    destruct (IH r eq_refl) as [K G]. split; [cbn; now f_equal|]. intros k. cbn [get]. destruct (String.eqb j k); [now rewrite F|apply G].
Qed.

(** ** Paths *)
Record tree (f : forest) : Prop := {
  t_acyclic : acyclic f;
  t_keys : forall k p, edge f k p -> In p (keys f);
  t_world : get "world" f = Some None;
  t_reaches : forall k, In k (keys f) -> reaches f k }.
Lemma make_tree_tree declared f : NoDup (keys declared) -> In "world" (keys declared) -> make_tree declared = Some f -> tree f /\ keys f = keys declared.
Proof.
  intros N W H. pose proof (make_tree_spec _ _ N W H) as (K & G & E & R). split; [|exact K]. split.
  - unfold make_tree in H. apply (assign_parents_spec _ _ _ _ H N (fun k Hk => blank_get declared k Hk) (blank_acyclic declared)).
  - rewrite K. exact E.
  - destruct (keys_get _ _ _ W) as (dp & Hd). apply (G _ _ Hd).
  - rewrite K. exact R.
Qed.
Lemma path_more f : get "world" f = Some None -> forall n k l fuel, chain f n k "world" l -> n <= fuel -> path_up fuel f k = path_up n f k.
Proof.
  intros W n k l fuel H. remember "world" as a eqn:Ea. revert fuel. induction H as [k|n k p a l H1 H2 IH]; intros fuel L; subst.
  - destruct fuel; [reflexivity|]. cbn. rewrite W. reflexivity.
  - destruct fuel as [|fuel]; [lia|]. cbn [path_up]. unfold edge in H1. rewrite H1. f_equal. rewrite (IH eq_refl W fuel) by lia. reflexivity.
Qed.
Lemma reaches_anc f k : reaches f k -> anc f k "world".
Proof. induction 1; [constructor|econstructor; eassumption]. Qed.
Lemma path_step f k p : tree f -> edge f k p -> path_up (List.length f) f k = k :: path_up (List.length f) f p.
Proof.
  intros [A K W R] E. destruct (anc_chain _ _ _ (reaches_anc _ _ (R p (K _ _ E)))) as (n & l & C).
  assert (C' : chain f (S n) k "world" (k :: l)) by (econstructor; eassumption).
  pose proof (chain_bound _ _ _ _ _ A C') as B.
  rewrite (path_more f W (S n) k _ _ C' B). cbn [path_up]. unfold edge in E. rewrite E. f_equal. symmetry. apply (path_more f W n p l); [exact C|lia].
Qed.
Lemma path_world f : tree f -> path_up (List.length f) f "world" = ["world"].
Proof. intros [A K W R]. destruct (List.length f); cbn; [reflexivity|]. now rewrite W. Qed.
Lemma path_below f k j : tree f -> anc f j k -> exists l, rev (path_up (List.length f) f j) = (rev (path_up (List.length f) f k) ++ l)%list /\ ~ In k l /\ incl l (keys f).
Proof.
  intros T H. induction H as [k|j p k E H IH].
  - exists []. rewrite app_nil_r. split; [reflexivity|]. split; [intros []|intros x []].
  - destruct IH as (l & El & Nl & Il). exists (l ++ [j])%list. rewrite (path_step f j p T E). cbn [rev]. rewrite El, app_assoc. split; [reflexivity|]. split.
    + rewrite in_app_iff. intros [Hl|[->|[]]]; [exact (Nl Hl)|]. exact (t_acyclic f T k p E H).
    + intros x Hx. apply in_app_iff in Hx. destruct Hx as [Hx|[<-|[]]]; [now apply Il|]. eapply In_keys, get_In. exact E.
Qed.
Lemma path_in_keys f k x : tree f -> In k (keys f) -> In x (path_up (List.length f) f k) -> In x (keys f).
Proof.
  intros T Hk Hx. apply path_anc in Hx. induction Hx as [k|k p a E H IH]; [exact Hk|]. apply IH. eapply t_keys; eassumption.
Qed.

(** ** The scene of a document *)
Section Fixed.
  Variable eig : vec -> vec.
  Variable d : document.
  Variable s : placed.
  Hypothesis Wn : NoDup (keys (d_nodes d)).
  Hypothesis Ww : In "world" (keys (d_nodes d)).
  Hypothesis Hs : place_document eig d = Some s.
  Notation f := (p_parents s).
  Notation names := (keys (p_parents s)).

  Lemma placed_inv : make_tree (map (fun '(k, n) => (k, ns_parent n)) (d_nodes d)) = Some f /\
    map_opt (fun '(k, n) => match (match place_node eig n with Some t => Some (pose t) | None => None end) with Some t => Some (k, t) | None => None end) (d_nodes d) = Some (p_poses s).
  Proof.
    unfold place_document in Hs. destruct (make_tree _) as [g|] eqn:M; [|discriminate].
    destruct (map_opt _ (d_nodes d)) as [ps|] eqn:P; [|discriminate]. injection Hs as Es. rewrite <- Es. cbn [p_poses p_parents]. split; [reflexivity|]. etransitivity; [|exact P].
    clear. induction (d_nodes d) as [|[k n] l IH]; [reflexivity|]. cbn [map_opt]. rewrite IH. destruct (place_node eig n); reflexivity.
  Qed.
  Lemma placed_tree : tree f /\ names = keys (d_nodes d).
  Proof.
    destruct placed_inv as [M _]. apply make_tree_tree in M.
    - destruct M as [T K]. split; [exact T|]. rewrite K. apply declared_keys.
    - change (NoDup (keys (declared_of (d_nodes d)))). rewrite declared_keys. exact Wn.
    - change (In "world" (keys (declared_of (d_nodes d)))). rewrite declared_keys. exact Ww.
  Qed.
  Lemma placed_pose k n : get k (d_nodes d) = Some n -> exists t, place_node eig n = Some t /\ get k (p_poses s) = Some (pose t).
  Proof.
    intros G. destruct placed_inv as [_ P].
    destruct (get_map_opt (fun n => match place_node eig n with Some t => Some (pose t) | None => None end) _ _ P) as [K H].
    specialize (H k). rewrite G in H. assert (I : In k (keys (p_poses s))) by (rewrite K; eapply In_keys, get_In; exact G).
    destruct (keys_get _ _ _ I) as (g & Eg). rewrite Eg in H. destruct (place_node eig n) as [t|]; [|discriminate]. exists t. split; [reflexivity|]. congruence.
  Qed.
  Lemma frames_wf i : wf_rigid (hpose (frames s) i).
  Proof.
    cbn [frames hpose]. destruct (get (nth i names "") (p_poses s)) as [g|] eqn:G; [|apply wf_rid].
    destruct placed_inv as [_ P]. destruct (get_map_opt (fun n => match place_node eig n with Some t => Some (pose t) | None => None end) _ _ P) as [K H].
    rewrite H in G. destruct (get (nth i names "") (d_nodes d)) as [n|]; [|discriminate]. destruct (place_node eig n) as [t|] eqn:E; [|discriminate].
    injection G as <-. eapply place_wf. exact E.
  Qed.
  Lemma frames_inv : all_invertible (frames s).
  Proof. intros i. apply wf_invertible, frames_wf. Qed.
  Lemma frames_path k : In k names -> hpath (frames s) (index k names) = map (fun k => index k names) (rev (path_up (List.length f) f k)).
  Proof. intros H. cbn [frames hpath]. now rewrite index_nth. Qed.
End Fixed.

Lemma round_near v : (distance_between (vround v 6) v <= sqrt 3 / 2 / 10 ^ 6)%R.
Proof.
  unfold distance_between, norm. set (e := (1 / 2 / 10 ^ 6)%R).
  assert (P : (0 < e)%R) by (unfold e; lra).
  replace (sqrt 3 / 2 / 10 ^ 6)%R with (sqrt (3 * (e * e)))%R.
  2: { rewrite sqrt_mult by nra. rewrite sqrt_square by lra. unfold e. lra. }
  apply sqrt_le_1; [apply dot_self_nonneg|nra|].
  unfold dot, vsub, vround. cbn [vx vy vz].
  assert (S : forall x, ((np_round x 6 - x) * (np_round x 6 - x) <= e * e)%R).
  { intros x. pose proof (np_round_near x 6) as H. change (1 / 2 / 10 ^ 6)%R with e in H. rewrite <- (Rabs_right e) in H by lra. apply Rsqr_le_abs_1 in H. exact H. }
  pose proof (S (vx v)). pose proof (S (vy v)). pose proof (S (vz v)). lra.
Qed.

Lemma along_same h h' l : (forall i, In i l -> hpose h i = hpose h' i) -> along_path h l = along_path h' l.
Proof. induction l as [|i l IH]; intros H; [reflexivity|]. cbn. rewrite (H i) by (now left). f_equal. apply IH. intros j Hj. apply H. now right. Qed.

Theorem C98_moved : forall eig d s k p d', wf_doc d -> In "world" (keys (d_nodes d)) -> place_document eig d = Some s -> move s k p d = Some d' ->
  parse_document d' = parse_document d /\
  exists s', place_document eig d' = Some s' /\ p_parents s' = p_parents s /\
    (* the node is where it was put *)
    (distance_between (convert s' k vzero "world") p <= sqrt 3 / 2 / 10 ^ 6)%R /\
    (* it and the nodes in it are shifted as one body *)
    (exists shift, forall j q, In j (keys (d_nodes d)) -> anc (p_parents s) j k -> convert s' j q "world" = vadd (convert s j q "world") shift) /\
    (* no other node is moved *)
    (forall j q, In j (keys (d_nodes d)) -> ~ anc (p_parents s) j k -> convert s' j q "world" = convert s j q "world").
Proof.
  intros eig d s k p d' (_ & Wn & _) Ww Hs Hm. unfold move in Hm.
  destruct (get k (p_parents s)) as [[par|]|] eqn:Gp; try discriminate. destruct (get k (d_nodes d)) as [n|] eqn:Gn; [|discriminate].
  injection Hm as <-. set (local := convert s "world" p par) in *. set (v := vround local 6). set (n' := NodeSpec _ _ _ _ _). change n' with (relocate n v). clear n'.
  set (d' := Doc (d_components d) (put k (relocate n v) (d_nodes d)) (d_recorders d)).
  assert (Kd : keys (d_nodes d') = keys (d_nodes d)) by (apply keys_put_old; eapply In_keys, get_In; exact Gn).
  split.
  { unfold parse_document, has. change (d_nodes d') with (put k (relocate n v) (d_nodes d)). rewrite get_put. change (parse_components d') with (parse_components d).
    assert (Ek : k <> "world"). { intros ->. rewrite (t_world _ (proj1 (placed_tree eig d s Wn Ww Hs))) in Gp. discriminate. }
    rewrite (proj2 (String.eqb_neq _ _) Ek). destruct (negb _); [reflexivity|]. destruct (parse_components d) as [cm|]; [|reflexivity].
    rewrite (put_map_opt _ k (relocate n v) n) by (first [exact Gn|reflexivity]).
    destruct (map_opt _ (d_nodes d)); [|reflexivity].
    rewrite (put_map _ k (relocate n v) n) by (first [exact Gn|reflexivity]).
    destruct (make_tree _); [|reflexivity].
    unfold all_recorders. change (d_nodes d') with (put k (relocate n v) (d_nodes d)). rewrite (put_fold _ k (relocate n v) n) by (first [exact Gn|reflexivity]). change (doc_recorders d') with (doc_recorders d).
    destruct (fold_left add_auto (d_nodes d) _); [|reflexivity]. change (keys (put k (relocate n v) (d_nodes d))) with (keys (d_nodes d')). rewrite Kd. reflexivity. }
  destruct (placed_inv eig d s Hs) as [M P]. destruct (placed_pose eig d s Hs k n Gn) as (t & Et & Gt).
  destruct (place_relocate eig n t v Et) as (t' & Et' & Rt & Tt).
  assert (Hs' : exists s', place_document eig d' = Some s' /\ p_parents s' = p_parents s /\ p_poses s' = put k (pose t') (p_poses s)).
  { exists (Placed (p_parents s) (put k (pose t') (p_poses s))). split; [|split; reflexivity]. unfold place_document. change (d_nodes d') with (put k (relocate n v) (d_nodes d)).
    rewrite (put_map _ k (relocate n v) n) by (first [exact Gn|reflexivity]). rewrite M.
    replace (map_opt _ (put k (relocate n v) (d_nodes d))) with (Some (put k (pose t') (p_poses s))); [reflexivity|]. symmetry.
    clear - P Gn Et'. revert P Gn. generalize (p_poses s) as ps. generalize (d_nodes d) as l. induction l as [|[j u] l IH]; intros ps P G; [discriminate|].
    cbn [get put map_opt] in *. destruct (place_node eig u) as [tu|] eqn:Eu; [|discriminate]. destruct (map_opt _ l) as [r|] eqn:Mr; [|discriminate]. injection P as <-.
    cbn [put]. destruct (String.eqb_spec j k) as [->|N].
    - injection G as ->. cbn [map_opt]. rewrite Et'.
      replace (map_opt _ l) with (Some r); [reflexivity|]. symmetry. rewrite <- Mr. clear. induction l as [|[k n] l IH]; [reflexivity|]. cbn [map_opt]. rewrite IH. destruct (place_node eig n); reflexivity.
    - cbn [map_opt]. rewrite Eu. rewrite (IH r eq_refl G). reflexivity. }
  destruct Hs' as (s' & Hs' & Ef & Ep). exists s'. split; [exact Hs'|]. split; [exact Ef|].
  destruct (placed_tree eig d s Wn Ww Hs) as [T Kn].
  set (names := keys (p_parents s)) in *. set (f := p_parents s) in *.
  assert (Ik : In k names) by (rewrite Kn; eapply In_keys, get_In; exact Gn).
  assert (Iw : In "world" names) by (rewrite Kn; exact Ww).
  assert (Ipar : In par names) by (eapply (t_keys f T); exact Gp).
  assert (Wn' : NoDup (keys (d_nodes d'))) by (rewrite Kd; exact Wn).
  assert (Ww' : In "world" (keys (d_nodes d'))) by (rewrite Kd; exact Ww).
  pose proof (frames_inv eig d s Hs) as Hi. pose proof (frames_inv eig d' s' Hs') as Hi'.
  pose proof (frames_wf eig d s Hs) as Hw. pose proof (frames_wf eig d' s' Hs') as Hw'.
  set (h := frames s) in *. set (h' := frames s') in *.
  assert (Epath : hpath h' = hpath h) by (unfold h, h', frames; cbn [hpath]; rewrite Ef; reflexivity).
  set (ix := fun x => index x names).
  assert (Pk : hpose h (ix k) = pose t). { unfold h, frames. cbn [hpose]. fold f. fold names. unfold ix. rewrite index_nth by exact Ik. now rewrite Gt. }
  assert (Pk' : hpose h' (ix k) = pose t'). { unfold h', frames. cbn [hpose]. rewrite Ef. fold f. fold names. unfold ix. rewrite index_nth by exact Ik. rewrite Ep, get_put, String.eqb_refl. reflexivity. }
  assert (Po : forall x, In x names -> x <> k -> hpose h' (ix x) = hpose h (ix x)).
  { intros x Ix Nx. unfold h, h', frames. cbn [hpose]. rewrite Ef. fold f. fold names. unfold ix. rewrite index_nth by exact Ix. rewrite Ep, get_put, (proj2 (String.eqb_neq _ _)) by congruence. reflexivity. }
  assert (Hpath : forall x, In x names -> hpath h (ix x) = map ix (rev (path_up (List.length f) f x))).
  { intros x Ix. exact (frames_path s x Ix). }
  assert (Un : forall x, In x names -> ~ anc f x k -> world h' (ix x) = world h (ix x)).
  { intros x Ix Nx. unfold world. rewrite Epath. rewrite (Hpath x Ix). apply along_same. intros i Hi0. apply in_map_iff in Hi0. destruct Hi0 as (y & <- & Hy).
    apply in_rev in Hy. apply Po; [exact (path_in_keys f x y T Ix Hy)|]. intros ->. apply Nx. eapply path_anc. exact Hy. }
  assert (Nw : ~ anc f "world" k).
  { intros A. inversion A as [|? q ? E _]; subst; [rewrite (t_world f T) in Gp; discriminate|unfold edge in E; rewrite (t_world f T) in E; discriminate]. }
  assert (Npar : ~ anc f par k) by (intros A; exact (t_acyclic f T k par Gp A)).
  assert (C : forall x q, In x names -> convert s x q "world" = to_point (ainv (world h (ix "world"))) (to_point (world h (ix x)) q)).
  { intros x q Ix. unfold convert, point_to_node. fold f. fold names. fold h. change (index x names) with (ix x). change (index "world" names) with (ix "world"). now rewrite transformation_world, to_point_rcomp by exact Hi. }
  assert (C' : forall x q, In x names -> convert s' x q "world" = to_point (ainv (world h (ix "world"))) (to_point (world h' (ix x)) q)).
  { intros x q Ix. unfold convert, point_to_node. rewrite Ef. fold f. fold names. fold h'. change (index x names) with (ix x). change (index "world" names) with (ix "world").
    rewrite transformation_world, to_point_rcomp by exact Hi'. now rewrite (Un "world" Iw Nw). }
  assert (Bel : forall j, In j names -> anc f j k -> exists l, world h (ix j) = rcomp (world h (ix par)) (rcomp (pose t) (along_path h l)) /\
                                               world h' (ix j) = rcomp (world h (ix par)) (rcomp (pose t') (along_path h l))).
  { intros j Ij Aj. destruct (path_below f k j T Aj) as (l & El & Nl & Il). exists (map ix l).
    assert (Ex : hpath h (ix j) = (hpath h (ix par) ++ ix k :: map ix l)%list).
    { rewrite (Hpath j Ij), El, (path_step f k par T Gp). cbn [rev]. rewrite <- app_assoc. cbn [app]. rewrite map_app. cbn [map]. now rewrite (Hpath par Ipar). }
    unfold world at 1 3. rewrite Epath, Ex, !along_path_app.
    change (along_path h (ix k :: map ix l)) with (rcomp (hpose h (ix k)) (along_path h (map ix l))).
    change (along_path h' (ix k :: map ix l)) with (rcomp (hpose h' (ix k)) (along_path h' (map ix l))). rewrite Pk, Pk'.
    split; [reflexivity|].
    replace (along_path h' (hpath h (ix par))) with (world h (ix par)) by (rewrite <- (Un par Ipar Npar); unfold world; now rewrite Epath).
    f_equal. f_equal. apply along_same. intros i Hi0. apply in_map_iff in Hi0. destruct Hi0 as (y & <- & Hy). apply Po; [now apply Il|]. intros ->. contradiction. }
  assert (Ek : convert s' k vzero "world" = to_point (ainv (world h (ix "world"))) (to_point (world h (ix par)) v)).
  { rewrite (C' k vzero Ik). destruct (Bel k Ik (anc_refl f k)) as (l & _ & B).
    unfold world at 2. rewrite Epath, (Hpath k Ik), (path_step f k par T Gp). cbn [rev]. rewrite map_app, along_path_app. cbn [map].
    change (along_path h' [ix k]) with (rcomp (hpose h' (ix k)) rid). rewrite Pk', rcomp_id_r.
    replace (along_path h' (map ix (rev (path_up (List.length f) f par)))) with (world h (ix par)) by (rewrite <- (Un par Ipar Npar); unfold world; now rewrite Epath, (Hpath par Ipar)).
    rewrite to_point_rcomp. f_equal. f_equal. unfold to_point. rewrite Tt. destruct (rot (pose t')) as [[] [] []], v. unfold mvec, dot, vadd, vzero. cbn. apply vec_eq; cbn; ring. }
  split; [|split].
  - rewrite Ek. 
    assert (Eg : p = to_point (ainv (world h (ix "world"))) (to_point (world h (ix par)) local)).
    { unfold local, convert, point_to_node. fold f. fold names. fold h. change (index par names) with (ix par). change (index "world" names) with (ix "world").
      rewrite transformation_world, to_point_rcomp by exact Hi. rewrite ainv_point_r by (now apply along_path_inv). now rewrite ainv_point_l by (now apply along_path_inv). }
    rewrite Eg at 1. rewrite !to_point_distance; [apply round_near|now apply wf_along|apply wf_ainv; now apply wf_along].
  - exists (to_vector (ainv (world h (ix "world"))) (to_vector (world h (ix par)) (vsub v (tra (pose t))))).
    intros j q Ij Aj. rewrite <- Kn in Ij. destruct (Bel j Ij Aj) as (l & E1 & E2). rewrite (C j q Ij), (C' j q Ij), E1, E2, !to_point_rcomp.
    set (q' := to_point (along_path h l) q). 
    replace (to_point (pose t') q') with (vadd (to_point (pose t) q') (vsub v (tra (pose t)))).
    + generalize (to_point (pose t) q') as x. generalize (vsub v (tra (pose t))) as y. intros y x.
      assert (L : forall g x y, to_point g (vadd x y) = vadd (to_point g x) (to_vector g y)).
      { intros g a b. unfold to_point, to_vector. rewrite mvec_add. destruct (mvec (rot g) a), (mvec (rot g) b), (tra g). apply vec_eq; cbn; ring. }
      now rewrite !L.
    + unfold to_point. rewrite Rt, Tt. destruct (mvec (rot (pose t)) q'), v, (tra (pose t)). apply vec_eq; cbn; ring.
  - intros j q Ij Nj. rewrite <- Kn in Ij. rewrite (C j q Ij), (C' j q Ij). now rewrite (Un j Ij Nj).
Qed.
Print Assumptions C98_moved.

(** Every node but world can be moved anywhere. *)
Theorem C98_defined : forall eig d s k p, wf_doc d -> In "world" (keys (d_nodes d)) -> place_document eig d = Some s ->
  ((exists d', move s k p d = Some d') <-> In k (keys (d_nodes d)) /\ k <> "world").
Proof.
  intros eig d s k p (_ & Wn & _) Ww Hs. destruct (placed_tree eig d s Wn Ww Hs) as [T Kn]. unfold move. split.
  - intros (d' & H). destruct (get k (p_parents s)) as [[par|]|] eqn:G; try discriminate. split.
    + rewrite <- Kn. eapply In_keys, get_In. exact G.
    + intros ->. rewrite (t_world _ T) in G. discriminate.
  - intros [I N]. destruct (keys_get _ _ _ I) as (n & Gn). rewrite Gn.
    assert (R : reaches (p_parents s) k) by (apply (t_reaches _ T); rewrite Kn; exact I). destruct R as [|k par E R]; [contradiction|].
    unfold edge in E. rewrite E. eauto.
Qed.
Print Assumptions C98_defined.

(** *** C99 *)
(** A parent's point of view: where the document puts the node and where its face points. *)
Definition to_parent (s : placed) (k : string) (v : vec) (par : string) : vec :=
  vector_to_node (frames s) (index k (keys (p_parents s))) v (index par (keys (p_parents s))).

Lemma parent_view eig d s k n par t : wf_doc d -> In "world" (keys (d_nodes d)) -> place_document eig d = Some s ->
  get k (d_nodes d) = Some n -> get k (p_parents s) = Some (Some par) -> place_node eig n = Some t ->
  (forall q, convert s k q par = to_point (pose t) q) /\ (forall v, to_parent s k v par = to_vector (pose t) v).
Proof.
  intros (_ & Wn & _) Ww Hs Gn Gp Et. destruct (placed_tree eig d s Wn Ww Hs) as [T Kn].
  destruct (placed_pose eig d s Hs k n Gn) as (t0 & Et0 & Gt). rewrite Et in Et0. injection Et0 as <-.
  assert (Ik : In k (keys (p_parents s))) by (eapply In_keys, get_In; exact Gp).
  assert (Ipar : In par (keys (p_parents s))) by (eapply (t_keys _ T); exact Gp).
  assert (E : transformation_to (frames s) (index k (keys (p_parents s))) (index par (keys (p_parents s))) = pose t).
  { rewrite transformation_world by (exact (frames_inv eig d s Hs)). unfold world. rewrite !frames_path by assumption. rewrite (path_step _ _ _ T Gp). cbn [rev].
    rewrite map_app, along_path_app, rcomp_assoc, ainv_l, rcomp_id_l by (apply along_path_inv, (frames_inv eig d s Hs)). cbn [map along_path fold_right].
    rewrite rcomp_id_r. cbn [frames hpose]. rewrite index_nth by exact Ik. now rewrite Gt. }
  unfold convert, point_to_node, to_parent, vector_to_node. rewrite E. auto.
Qed.

(** The origin of a node is at its declared location in the parent's frame, whatever its direction. *)
Theorem C99_location : forall eig d s k n par, wf_doc d -> In "world" (keys (d_nodes d)) -> place_document eig d = Some s ->
  get k (d_nodes d) = Some n -> get k (p_parents s) = Some (Some par) ->
  match ns_location n with
  | None => convert s k vzero par = vzero
  | Some [x; y; z] => convert s k vzero par = V x y z
  | _ => True
  end.
Proof.
  intros eig d s k n par W Ww Hs Gn Gp. destruct (placed_pose eig d s Hs k n Gn) as (t & Et & _).
  destruct (parent_view eig d s k n par t W Ww Hs Gn Gp Et) as [V _].
  assert (L : forall t, place_node eig n = Some t -> loc t = tra (pose t) /\ match ns_location n with None => tra (pose t) = vzero | Some [x; y; z] => tra (pose t) = Vec.V x y z | _ => True end).
  { clear. intros t. unfold place_node.
    set (l := match ns_location n with None | Some [] => Some (tf_init None) | Some l => match vec_of l with Some v => Some (set_location (tf_init None) v false) | None => None end end).
    assert (Hl : forall t, l = Some t -> loc t = tra (pose t) /\ match ns_location n with None => loc t = vzero | Some [x; y; z] => loc t = Vec.V x y z | _ => True end).
    { intros t0 E. unfold l in E. destruct (ns_location n) as [[|x [|y [|z [|]]]]|]; try discriminate; injection E as <-; split; (reflexivity || exact I). }
    clearbody l. destruct l as [t0|]; [|discriminate]. destruct (Hl t0 eq_refl) as [H1 H2]. clear Hl.
    assert (Keep : forall t, loc t = tra (pose t) -> loc t = loc t0 -> loc t = tra (pose t) /\ match ns_location n with None => tra (pose t) = vzero | Some [x; y; z] => tra (pose t) = Vec.V x y z | _ => True end).
    { intros t' A B. split; [exact A|]. destruct (ns_location n) as [[|x [|y [|z [|]]]]|]; try exact I; rewrite <- A, B; exact H2. }
    destruct (ns_direction n) as [[|x r]|]; [intros [= <-]; now apply Keep| |intros [= <-]; now apply Keep].
    destruct (vec_of (x :: r)) as [b|]; [|discriminate]. intros E. apply Keep.
    - exact (apply_op_loc t0 (LookAt b (eig b)) t E H1).
    - destruct (look_at_inv _ _ _ _ E) as (a & ax & Er). now apply (C47_rotate_keeps_location t0 a ax). }
  destruct (L t Et) as [_ H]. assert (O : to_point (pose t) vzero = tra (pose t)).
  { unfold to_point. destruct (rot (pose t)) as [[] [] []], (tra (pose t)). unfold mvec, dot, vadd, vzero. cbn. apply vec_eq; cbn; ring. }
  destruct (ns_location n) as [[|x [|y [|z [|]]]]|]; try exact I; rewrite V, O; exact H.
Qed.
Print Assumptions C99_location.

(** A node with a declared direction of unit length faces it, unless the direction is within the
    tolerance of -z without being -z; one without a direction is not turned. *)
Theorem C99_direction_partial : forall eig d s k n par, wf_doc d -> In "world" (keys (d_nodes d)) -> place_document eig d = Some s ->
  get k (d_nodes d) = Some n -> get k (p_parents s) = Some (Some par) ->
  (ns_direction n = None -> forall v, to_parent s k v par = v) /\
  (forall x y z, ns_direction n = Some [x; y; z] -> is_unit (V x y z) -> eig_spec (look_matrix (V x y z)) (eig (V x y z)) ->
     OpticsModel.np_close z (-1) = false \/ V x y z = V 0 0 (-1) -> to_parent s k (V 0 0 1) par = V x y z).
Proof.
  intros eig d s k n par W Ww Hs Gn Gp. destruct (placed_pose eig d s Hs k n Gn) as (t & Et & _).
  destruct (parent_view eig d s k n par t W Ww Hs Gn Gp Et) as [_ V]. unfold place_node in Et.
  set (l := match ns_location n with None | Some [] => Some (tf_init None) | Some l => match vec_of l with Some v => Some (set_location (tf_init None) v false) | None => None end end) in Et.
  assert (Hl : forall t, l = Some t -> rot (pose t) = mid).
  { intros t0 E. unfold l in E. destruct (ns_location n) as [[|x r]|]; try (injection E as <-; reflexivity). destruct (vec_of (x :: r)); [injection E as <-; reflexivity|discriminate]. }
  clearbody l. destruct l as [t0|]; [|discriminate]. specialize (Hl t0 eq_refl). split.
  - intros Ed v. rewrite Ed in Et. injection Et as <-. rewrite V. unfold to_vector. rewrite Hl. apply mvec_id.
  - intros x y z Ed Hu He Hc. rewrite Ed in Et. cbn [vec_of] in Et. rewrite V.
    apply (C49_look_at_partial t0 (Vec.V x y z) (eig (Vec.V x y z)) t Hu He); [|exact Hc|exact Et]. unfold to_vector. rewrite Hl. apply mvec_id.
Qed.
Print Assumptions C99_direction_partial.

(** Without unit length this fails: a detector aimed along (5, 0, -1) looks straight down. *)
Definition aimed (dir : list R) : document :=
  Doc None [("world", NodeSpec (Geometry (SSphere 10) glass_spec) None None None false);
            ("detector", NodeSpec (Geometry (SSphere 1) glass_spec) None (Some [1; 2; 3]%R) (Some dir) false);
            ("part", NodeSpec (Geometry (SSphere (1 / 2)) glass_spec) (Some "detector") None None false)] None.
Theorem C99_direction_refuted : exists d, wf_doc d /\ forall eig, exists s x y z,
  place_document eig d = Some s /\ option_map ns_direction (get "detector" (d_nodes d)) = Some (Some [x; y; z]) /\
  get "detector" (p_parents s) = Some (Some "world") /\ forall c, to_parent s "detector" (V 0 0 1) "world" <> vscale c (V x y z).
Proof.
  exists (aimed [5; 0; -1]%R).
  assert (W : wf_doc (aimed [5; 0; -1]%R)) by (repeat split; repeat constructor; cbn; intuition discriminate).
  split; [exact W|]. intros eig.
  assert (Uy : unit_vector (V 0 1 0) = Some (V 0 1 0)) by (apply unit_vector_of_unit; unfold is_unit, dot; simpl; ring).
  set (t := Tf (V 1 2 3) false (rcomp (Rigid (rodrigues (sin PI) (cos PI) (V 0 1 0)) (vsub (V 1 2 3) (mvec (rodrigues (sin PI) (cos PI) (V 0 1 0)) (V 1 2 3)))) (Rigid mid (V 1 2 3)))).
  assert (Et : place_node eig (NodeSpec (Geometry (SSphere 1) glass_spec) None (Some [1; 2; 3]%R) (Some [5; 0; -1]%R) false) = Some t).
  { unfold place_node. cbn [ns_location ns_direction vec_of]. unfold look_at. replace (dot zaxis (V 5 0 (-1))) with (-1)%R by (unfold zaxis, dot; simpl; ring).
    replace (OpticsModel.np_close (-1) (-1)) with true.
    2:{ symmetry. unfold OpticsModel.np_close. apply Base.Rleb_true. replace (-1 - -1)%R with 0%R by ring. rewrite Rabs_R0. rewrite (Rabs_left (-1)) by lra. lra. }
    unfold rotate, rotation_matrix. rewrite Uy. reflexivity. }
  assert (Hs : exists s, place_document eig (aimed [5; 0; -1]%R) = Some s /\ p_parents s = [("world", None); ("detector", Some "world"); ("part", Some "detector")]).
  { unfold place_document, aimed. cbn [d_nodes map ns_parent]. 
    replace (make_tree _) with (Some [("world", None); ("detector", Some "world"); ("part", Some "detector")]) by reflexivity.
    cbn [map_opt]. rewrite Et. cbn [place_node ns_location ns_direction]. eexists. split; reflexivity. }
  destruct Hs as (s & Hs & Ef). exists s, 5%R, 0%R, (-1)%R. split; [exact Hs|]. split; [reflexivity|].
  assert (Gp : get "detector" (p_parents s) = Some (Some "world")) by (rewrite Ef; reflexivity). split; [exact Gp|]. intros c E.
  destruct (parent_view eig _ s "detector" _ "world" t W (or_introl eq_refl) Hs eq_refl Gp Et) as [_ V]. rewrite V in E.
  unfold to_vector, t in E. cbn [pose rcomp rot] in E. rewrite mmul_id_r, sin_PI, cos_PI in E. unfold rodrigues in E; cbn [vx vy vz] in E. rewrite mvec_eval in E.
  unfold vscale in E; cbn [vx vy vz] in E. injection E as E1 _ E3. lra.
Qed.
Print Assumptions C99_direction_refuted.

(** A detector aimed straight down with a part in it; the detector is moved and the part goes with
    it, while world stays. *)
Example C98_example : forall eig, exists s d', place_document eig (aimed [0; 0; -1]%R) = Some s /\
  move s "detector" (V 5 0 0) (aimed [0; 0; -1]%R) = Some d' /\ anc (p_parents s) "part" "detector" /\ ~ anc (p_parents s) "world" "detector" /\
  to_parent s "detector" (V 0 0 1) "world" = V 0 0 (-1).
Proof.
  intros eig.
  assert (W : wf_doc (aimed [0; 0; -1]%R)) by (repeat split; repeat constructor; cbn; intuition discriminate).
  assert (Uy : unit_vector (V 0 1 0) = Some (V 0 1 0)) by (apply unit_vector_of_unit; unfold is_unit, dot; simpl; ring).
  assert (Et : exists t, place_node eig (NodeSpec (Geometry (SSphere 1) glass_spec) None (Some [1; 2; 3]%R) (Some [0; 0; -1]%R) false) = Some t /\ to_vector (pose t) (V 0 0 1) = V 0 0 (-1)).
  { unfold place_node. cbn [ns_location ns_direction vec_of]. unfold look_at. replace (dot zaxis (V 0 0 (-1))) with (-1)%R by (unfold zaxis, dot; simpl; ring).
    replace (OpticsModel.np_close (-1) (-1)) with true.
    2:{ symmetry. unfold OpticsModel.np_close. apply Base.Rleb_true. replace (-1 - -1)%R with 0%R by ring. rewrite Rabs_R0. rewrite (Rabs_left (-1)) by lra. lra. }
    unfold rotate, rotation_matrix. rewrite Uy. eexists. split; [reflexivity|]. unfold to_vector. cbn [pose rcomp rot set_location]. rewrite mmul_id_r, sin_PI, cos_PI.
    unfold rodrigues; cbn [vx vy vz]. rewrite mvec_eval. apply vec_eq; cbn; ring. }
  destruct Et as (t & Et & Ev).
  assert (Hs : exists s, place_document eig (aimed [0; 0; -1]%R) = Some s /\ p_parents s = [("world", None); ("detector", Some "world"); ("part", Some "detector")]).
  { unfold place_document, aimed. cbn [d_nodes map ns_parent].
    replace (make_tree _) with (Some [("world", None); ("detector", Some "world"); ("part", Some "detector")]) by reflexivity.
    cbn [map_opt]. rewrite Et. cbn [place_node ns_location ns_direction]. eexists. split; reflexivity. }
  destruct Hs as (s & Hs & Ef). exists s.
  destruct (proj2 (C98_defined eig _ s "detector" (V 5 0 0) W (or_introl eq_refl) Hs)) as (d' & Hd); [split; [right; left; reflexivity|discriminate]|].
  exists d'. split; [exact Hs|]. split; [exact Hd|].
  assert (Gp : get "detector" (p_parents s) = Some (Some "world")) by (rewrite Ef; reflexivity).
  split; [|split].
  - apply anc_one. unfold edge. rewrite Ef. reflexivity.
  - intros A. inversion A as [|? q ? E _]; subst. unfold edge in E. rewrite Ef in E. discriminate.
  - destruct (parent_view eig _ s "detector" _ "world" t W (or_introl eq_refl) Hs eq_refl Gp Et) as [_ V]. rewrite V. exact Ev.
Qed.
