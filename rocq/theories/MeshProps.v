(** C139-C142: meshes (geometry/mesh.py) and boxes as meshes (geometry/box.py). *)
From Coq Require Import Reals Lra Lia Psatz List Bool Arith Permutation Sorted.
From Verif Require Import Base Vec PhaseModel PhaseProofs GeomModel GeomProofs MeshModel MeshProofs.
Import ListNotations.
Open Scope R_scope.

(** ** What a centre of mass is *)
(** [c] is the mean of the centres of the tetrahedra between the origin and the faces, each
    weighted with its volume (with sign); the solid is the sum of these tetrahedra. *)
Definition weight (m : mesh) : R := total (map tetra m).
Definition mass_centre (m : mesh) (c : vec) : Prop :=
  forall k, k = vx \/ k = vy \/ k = vz ->
  total (map (fun f => let '(p, q, r) := f in det3 p q r * ((0 + k p + k q + k r) / 4)) m) = k c * weight m.

Lemma mass_sum k m :
  total (map (fun f : face => let '(p, q, r) := f in det3 p q r * ((0 + k p + k q + k r) / 4)) m) =
  total (map (fun f => tetra f * f1 k f) m) / 4.
Proof.
  rewrite (total_ext _ (fun f => / 4 * (tetra f * f1 k f))); [rewrite total_scale; field|].
  intros [[p q] r]. unfold tetra, f1. field.
Qed.
Lemma weight_volume m : closed m -> weight m = 6 * volume m.
Proof. intros C. rewrite (volume_tetra m C). unfold weight. field. Qed.
Lemma mass_centre_model m : closed m -> weight m <> 0 -> mass_centre m (center_mass m).
Proof.
  intros C NZ. rewrite (weight_volume m C) in NZ. assert (NV : volume m <> 0) by (intros E; apply NZ; rewrite E; ring).
  destruct (moment_tetra m C) as (X & Y & Z).
  intros k [ -> |[ -> | -> ]]; rewrite mass_sum, (weight_volume m C); unfold center_mass; rewrite (proj2 (Reqb_false _ _) NV); cbn [vx vy vz];
    [rewrite X|rewrite Y|rewrite Z]; field; intros Q; apply NV; lra.
Qed.
Lemma mass_centre_unique m c e : weight m <> 0 -> mass_centre m c -> mass_centre m e -> c = e.
Proof.
  intros NZ A B. apply vec_eq; apply (Rmult_eq_reg_r (weight m)); auto; rewrite <- A, <- B; auto.
Qed.

(** ** C139: a mesh stands with its centre of mass at the origin of its node *)
Theorem C139_centred : forall m, closed m -> weight m <> 0 ->
  mass_centre (wrap m) vzero /\ weight (wrap m) = weight m /\
  exists c, mass_centre m c /\ forall p, on_mesh (wrap m) p <-> on_mesh m (vadd p c).
Proof.
  intros m C NZ. pose proof (mass_centre_model m C NZ) as MC.
  assert (NV : volume m <> 0) by (intros E; apply NZ; rewrite (weight_volume m C), E; ring).
  assert (Cw : closed (wrap m)) by now apply closed_move.
  assert (W : weight (wrap m) = weight m).
  { rewrite !weight_volume by assumption. f_equal. now apply volume_move. }
  split; [|split; [exact W|]].
  - assert (Z : center_mass (wrap m) = vzero).
    { unfold wrap. rewrite center_mass_move by assumption. apply vec_eq; vsimp; ring. }
    rewrite <- Z. apply mass_centre_model; [exact Cw|]. now rewrite W.
  - exists (center_mass m). split; [exact MC|]. intros p. apply on_mesh_move.
Qed.
Print Assumptions C139_centred.

(** The object that the caller passed is itself moved; to wrap it again moves it no further. *)
Theorem C139_wrap_again : forall m, closed m -> weight m <> 0 -> wrap (wrap m) = wrap m.
Proof.
  intros m C NZ. assert (NV : volume m <> 0) by (intros E; apply NZ; rewrite (weight_volume m C), E; ring).
  unfold wrap at 1. replace (center_mass (wrap m)) with vzero; [apply move_zero|].
  unfold wrap. rewrite center_mass_move by assumption. apply vec_eq; vsimp; ring.
Qed.
Print Assumptions C139_wrap_again.

(** Where the file puts the mesh does not matter. *)
Theorem C139_file_origin : forall m c, closed m -> weight m <> 0 -> wrap (move c m) = wrap m.
Proof.
  intros m c C NZ. assert (NV : volume m <> 0) by (intros E; apply NZ; rewrite (weight_volume m C), E; ring).
  unfold wrap. rewrite center_mass_move, move_move by assumption. f_equal. apply vec_eq; vsimp; ring.
Qed.
Print Assumptions C139_file_origin.

(** Edges and normals are as in the file. *)
Theorem C139_shape_kept : forall m,
  map face_normal (wrap m) = map face_normal m /\
  map (fun e => vsub (snd e) (fst e)) (edges (wrap m)) = map (fun e => vsub (snd e) (fst e)) (edges m).
Proof.
  intros m. unfold wrap. split.
  - unfold move. rewrite map_map. apply map_ext. intros f. unfold face_normal. now rewrite edge_cross_move.
  - rewrite edges_move, map_map. apply map_ext. intros [p q]. apply vec_eq; vsimp; ring.
Qed.
Print Assumptions C139_shape_kept.

(** ** A corner of a cube, three units from the origin *)
Fixpoint take {A} (eqb : A -> A -> bool) (x : A) (l : list A) : option (list A) :=
  match l with
  | [] => None
  | y :: r => if eqb x y then Some r else option_map (cons y) (take eqb x r)
  end.
Fixpoint shuffled {A} (eqb : A -> A -> bool) (l r : list A) : bool :=
  match l with
  | [] => match r with [] => true | _ => false end
  | x :: l => match take eqb x r with Some r' => shuffled eqb l r' | None => false end
  end.
Lemma take_perm {A} (eqb : A -> A -> bool) : (forall x y, eqb x y = true -> x = y) ->
  forall x l r, take eqb x l = Some r -> Permutation (x :: r) l.
Proof.
  intros E x l. induction l as [|y l IH]; simpl; intros r H; [discriminate|]. destruct (eqb x y) eqn:Q.
  - apply E in Q. injection H as <-. now subst.
  - destruct (take eqb x l) as [r'|]; [|discriminate]. injection H as <-. rewrite perm_swap. constructor. now apply IH.
Qed.
Lemma shuffled_perm {A} (eqb : A -> A -> bool) : (forall x y, eqb x y = true -> x = y) ->
  forall l r, shuffled eqb l r = true -> Permutation l r.
Proof.
  intros E l. induction l as [|x l IH]; simpl; intros r H; [destruct r; [constructor|discriminate]|].
  destruct (take eqb x r) as [r'|] eqn:T; [|discriminate]. rewrite <- (take_perm eqb E x r r' T). constructor. now apply IH.
Qed.
Definition pair_eqb (x y : nat * nat) : bool := Nat.eqb (fst x) (fst y) && Nat.eqb (snd x) (snd y).
Definition index_edges (l : list (nat * nat * nat)) : list (nat * nat) :=
  flat_map (fun f => let '(i, j, k) := f in [(i, j); (j, k); (k, i)]) l.
Definition by_index (P : nat -> vec) (l : list (nat * nat * nat)) : mesh := map (fun '(i, j, k) => (P i, P j, P k)) l.
Lemma closed_by_index P l :
  shuffled pair_eqb (index_edges l) (map (fun e => (snd e, fst e)) (index_edges l)) = true -> closed (by_index P l).
Proof.
  intros S. apply shuffled_perm in S.
  - assert (E : edges (by_index P l) = map (fun e => (P (fst e), P (snd e))) (index_edges l)).
    { unfold edges, by_index, index_edges. clear S. induction l as [|[[i j] k] l IH]; [reflexivity|]. simpl. now rewrite IH. }
    unfold closed. rewrite E, map_map. change (fun x => turned (P (fst x), P (snd x))) with (fun x : nat * nat => (P (snd x), P (fst x))).
    rewrite <- (map_map (fun e : nat * nat => (snd e, fst e)) (fun e => (P (fst e), P (snd e)))). now apply Permutation_map.
  - intros [a b] [c d]. unfold pair_eqb. simpl. rewrite andb_true_iff, !Nat.eqb_eq. now intros [-> ->].
Qed.

Definition wedge_corner (x : R) (i : nat) : vec :=
  match i with 0%nat => V x 0 0 | 1%nat => V (x + 1) 0 0 | 2%nat => V x 1 0 | _ => V x 0 1 end.
Definition wedge (x : R) : mesh := by_index (wedge_corner x) [(0, 2, 1); (0, 1, 3); (0, 3, 2); (1, 2, 3)]%nat.
Lemma wedge_closed x : closed (wedge x).
Proof. apply closed_by_index. reflexivity. Qed.
Lemma wedge_weight x : weight (wedge x) = 1.
Proof. unfold weight, wedge, by_index, tetra, det3. simpl. vsimp. ring. Qed.
Lemma wedge_centre x : mass_centre (wedge x) (V (x + 1 / 4) (1 / 4) (1 / 4)).
Proof.
  intros k Hk. rewrite wedge_weight. unfold wedge, by_index, tetra, det3. simpl. destruct Hk as [ -> |[ -> | -> ]]; vsimp; field.
Qed.
Lemma wedge_wrap x : wrap (wedge x) = move (V (x + 1 / 4) (1 / 4) (1 / 4)) (wedge x).
Proof.
  unfold wrap. f_equal. apply (mass_centre_unique (wedge x)).
  - rewrite wedge_weight. lra.
  - apply mass_centre_model; [apply wedge_closed|]. rewrite wedge_weight. lra.
  - apply wedge_centre.
Qed.
Example C139_example : closed (wedge 3) /\ weight (wedge 3) <> 0 /\
  on_mesh (wedge 3) (V 4 0 0) /\ on_mesh (wrap (wedge 3)) (V (3 / 4) (- 1 / 4) (- 1 / 4)) /\ wrap (wedge 3) <> wedge 3.
Proof.
  assert (F : on_mesh (wedge 3) (V 4 0 0)).
  { eexists. split; [left; reflexivity|]. exists 0, 0, 1. repeat split; try lra. apply vec_eq; vsimp; lra. }
  split; [apply wedge_closed|]. split; [rewrite wedge_weight; lra|]. split; [exact F|]. split.
  - rewrite wedge_wrap. apply on_mesh_move. replace (vadd _ _) with (V 4 0 0); [exact F|]. apply vec_eq; vsimp; field.
  - rewrite wedge_wrap. intros E. apply (f_equal (fun m => vx (fst (fst (nth 0 m (vzero, vzero, vzero)))))) in E. vsimp. lra.
Qed.
(** Without a closed surface there is no volume and the formula depends on the origin: a
    single triangle does not come to rest. *)
Example C139_open_mesh : let m := [(V 1 0 0, V 1 1 0, V 1 0 1)] in ~ closed m /\ wrap (wrap m) <> wrap m.
Proof.
  assert (Nc : ~ closed [(V 1 0 0, V 1 1 0, V 1 0 1)]).
  { intros C. apply no_net_area in C. destruct C as (X & _ & _). unfold edge_cross in X. vsimp. lra. }
  cbv zeta. split; [exact Nc|].
  assert (V1 : volume [(V 1 0 0, V 1 1 0, V 1 0 1)] = 1 / 2) by (unfold volume, edge_cross, f1; simpl; vsimp; field).
  assert (W1 : wrap [(V 1 0 0, V 1 1 0, V 1 0 1)] = [(V (1 / 2) 0 0, V (1 / 2) 1 0, V (1 / 2) 0 1)]).
  { unfold wrap, center_mass. rewrite V1. rewrite (proj2 (Reqb_false _ _)) by lra. unfold moment, edge_cross, f2, move, move_face. simpl. vsimp.
    f_equal. f_equal; [f_equal|]; apply vec_eq; vsimp; field. }
  rewrite W1.
  assert (V2 : volume [(V (1 / 2) 0 0, V (1 / 2) 1 0, V (1 / 2) 0 1)] = 1 / 4) by (unfold volume, edge_cross, f1; simpl; vsimp; field).
  unfold wrap, center_mass. rewrite V2. rewrite (proj2 (Reqb_false _ _)) by lra.
  intros E. apply (f_equal (fun m => vx (fst (fst (nth 0 m (vzero, vzero, vzero)))))) in E.
  unfold moment, edge_cross, f2, move, move_face in E. simpl in E. vsimp. lra.
Qed.

(** ** C140: parts of one assembly *)
(** Put into a scene without a location, two parts from one file do not keep their places
    relative to each other. *)
Theorem C140_assembly_refuted : exists m n, closed m /\ weight m <> 0 /\ closed n /\ weight n <> 0 /\
  ~ exists c, (forall p, on_mesh (wrap m) p <-> on_mesh m (vadd p c)) /\ (forall p, on_mesh (wrap n) p <-> on_mesh n (vadd p c)).
Proof.
  exists (wedge 0), (wedge 3). split; [apply wedge_closed|]. split; [rewrite wedge_weight; lra|]. split; [apply wedge_closed|]. split; [rewrite wedge_weight; lra|].
  intros (c & A & B).
  assert (E : wrap (wedge 3) = wrap (wedge 0)).
  { replace (wedge 3) with (move (V (- 3) 0 0) (wedge 0)); [apply C139_file_origin; [apply wedge_closed|rewrite wedge_weight; lra]|].
    unfold wedge, by_index, move, move_face. simpl. repeat (f_equal; try (apply vec_eq; vsimp; lra)). }
  assert (F : on_mesh (wedge 3) (V 4 0 0)).
  { eexists. split; [left; reflexivity|]. exists 0, 0, 1. repeat split; try lra. apply vec_eq; vsimp; lra. }
  assert (G : on_mesh (wedge 0) (V 4 0 0)).
  { replace (V 4 0 0) with (vadd (vsub (V 4 0 0) c) c) in F |- * by (apply vec_eq; vsimp; ring).
    apply A. rewrite <- E. apply B. exact F. }
  destruct G as (f & I & P). unfold wedge, by_index in I. simpl in I.
  destruct I as [<-|[<-|[<-|[<-|[]]]]]; destruct P as (u & v & w & U & Vv & W & S & Q); apply (f_equal vx) in Q; vsimp; lra.
Qed.
Print Assumptions C140_assembly_refuted.

(** They do if each node is given the centre of mass that its part has in the file. *)
Theorem C140_assembly_partial : forall m c, closed m -> weight m <> 0 -> mass_centre m c ->
  forall p, on_mesh (wrap m) (vsub p c) <-> on_mesh m p.
Proof.
  intros m c C NZ Hc p. assert (c = center_mass m) by (apply (mass_centre_unique m); auto using mass_centre_model). subst c.
  unfold wrap. rewrite on_mesh_move. replace (vadd (vsub p _) _) with p by (apply vec_eq; vsimp; ring). tauto.
Qed.
Print Assumptions C140_assembly_partial.
Example C140_example : mass_centre (wedge 3) (V (13 / 4) (1 / 4) (1 / 4)) /\
  on_mesh (wrap (wedge 3)) (vsub (V 4 0 0) (V (13 / 4) (1 / 4) (1 / 4))).
Proof.
  assert (H : mass_centre (wedge 3) (V (13 / 4) (1 / 4) (1 / 4))).
  { replace (13 / 4) with (3 + 1 / 4) by field. apply wedge_centre. }
  split; [exact H|]. apply C140_assembly_partial; [apply wedge_closed|rewrite wedge_weight; lra|exact H|].
  eexists. split; [left; reflexivity|]. exists 0, 0, 1. repeat split; try lra. apply vec_eq; vsimp; lra.
Qed.

(** ** C141: rays and normals *)
(** The caster returns the hits in some order; the closest point is one of least distance. *)
Definition casts (locations : mesh -> vec -> vec -> list vec) (m : mesh) (o d : vec) : Prop :=
  Permutation (intersects_location m o d) (locations m o d).
Definition finds_nearest (nearest : mesh -> vec -> nearest_result) (m : mesh) (p : vec) : Prop :=
  let '(q, r, i) := nearest m p in
  exists f, nth_error m i = Some f /\ in_face f q /\ r = distance_between p q /\
    forall q', on_mesh m q' -> r <= distance_between p q'.

Lemma sorted_intersections L m o d : Permutation (L m o d) (mesh_intersections L m o d) /\
  StronglySorted (fun p q => distance_between o p <= distance_between o q) (mesh_intersections L m o d).
Proof.
  unfold mesh_intersections. destruct (L m o d) as [|x l]; [split; constructor|]. split; [apply sort_by_perm|].
  pose proof (sort_by_sorted (fun p => norm (vsub p o)) (x :: l)) as S. unfold sorted_by in S.
  assert (K : forall p, norm (vsub p o) = distance_between o p) by (intros p; rewrite distance_sym; reflexivity).
  induction S as [|a r S IH F]; constructor; [exact IH|]. rewrite Forall_forall in *. intros y Hy. rewrite <- !K. now apply F.
Qed.
Theorem C141_intersections : forall L m o d, casts L m o d -> solid_faces m -> is_unit d ->
  let l := mesh_intersections L m o d in
  (forall p, In p l <-> exists t f, 0 <= t /\ p = vadd o (vscale t d) /\ In f m /\ in_face f p /\ dot (edge_cross f) d <> 0) /\
  NoDup l /\ StronglySorted (fun p q => distance_between o p <= distance_between o q) l.
Proof.
  intros L m o d C S U l. destruct (sorted_intersections L m o d) as (P & Q). fold l in P, Q.
  destruct (locations_spec m o d S) as (ts & E & N & T).
  assert (P' : Permutation (map (at_ray o d) ts) l) by (rewrite <- E; now transitivity (L m o d)).
  split; [|split; [|exact Q]].
  - intros p. split.
    + intros I. apply (Permutation_in _ (Permutation_sym P')) in I. apply in_map_iff in I. destruct I as (t & <- & I).
      apply T in I. destruct I as (A & f & B & X & Y). exists t, f. auto.
    + intros (t & f & A & -> & B & X & Y). apply (Permutation_in _ P'). apply in_map_iff. exists t. split; [reflexivity|]. apply T. eauto.
  - apply (Permutation_NoDup P'). apply FinFun.Injective_map_NoDup; [|exact N]. intros s t H. unfold at_ray in H.
    assert (H1 := f_equal vx H). assert (H2 := f_equal vy H). assert (H3 := f_equal vz H). unfold is_unit in U. vsimp.
    assert (D : (s - t) * (vx d * vx d + vy d * vy d + vz d * vz d) = 0).
    { replace ((s - t) * _) with (vx d * (s * vx d - t * vx d) + vy d * (s * vy d - t * vy d) + vz d * (s * vz d - t * vz d)) by ring.
      replace (s * vx d - t * vx d) with 0 by lra. replace (s * vy d - t * vy d) with 0 by lra. replace (s * vz d - t * vz d) with 0 by lra. ring. }
    rewrite U in D. lra.
Qed.
Print Assumptions C141_intersections.

(** the outward unit vector of a face, by its properties *)
Definition normal_to (f : face) (n : vec) : Prop :=
  let '(a, b, c) := f in
  is_unit n /\ dot n (vsub b a) = 0 /\ dot n (vsub c a) = 0 /\ 0 < dot n (cross (vsub b a) (vsub c a)).
Lemma edge_cross_alt a b c : edge_cross (a, b, c) = cross (vsub b a) (vsub c a).
Proof. unfold edge_cross. apply vec_eq; vsimp; ring. Qed.
Lemma norm_pos v : v <> vzero -> 0 < norm v.
Proof. intros H. apply sqrt_lt_R0, dot_pos, H. Qed.
Lemma face_normal_ok f : edge_cross f <> vzero -> normal_to f (face_normal f).
Proof.
  destruct f as [[a b] c]. intros N. pose proof (norm_pos _ N) as P. unfold normal_to, face_normal, is_unit.
  rewrite dot_scale_l, dot_scale_r, <- norm_sq. repeat split.
  - field. lra.
  - rewrite dot_scale_l. replace (dot (edge_cross (a, b, c)) (vsub b a)) with 0 by (rewrite edge_cross_alt; vsimp; ring). ring.
  - rewrite dot_scale_l. replace (dot (edge_cross (a, b, c)) (vsub c a)) with 0 by (rewrite edge_cross_alt; vsimp; ring). ring.
  - rewrite dot_scale_l, <- edge_cross_alt. apply Rmult_lt_0_compat; [now apply Rinv_0_lt_compat|now apply dot_pos].
Qed.

(** A normal is given just where the surface is nearer than EPS_ZERO; it is the normal of a
    face that is that near. *)
Theorem C141_normal : forall N m p, finds_nearest N m p -> solid_faces m ->
  (mesh_on_surface N m p = true <-> exists q, on_mesh m q /\ distance_between p q < EPS_ZERO) /\
  (mesh_on_surface N m p = false <-> mesh_normal N m p = None) /\
  (forall n, mesh_normal N m p = Some n -> exists f q, In f m /\ in_face f q /\ distance_between p q < EPS_ZERO /\ normal_to f n).
Proof.
  intros N m p F S. unfold finds_nearest in F. unfold mesh_on_surface, mesh_normal. destruct (N m p) as [[q r] i].
  destruct F as (f & E & Q & -> & M). assert (P : Rabs (distance_between p q) = distance_between p q) by (apply Rabs_right; apply Rle_ge, norm_nonneg).
  rewrite P, E. pose proof (nth_error_In _ _ E) as I. destruct (Rltb_spec (distance_between p q) EPS_ZERO) as [L|L]; simpl.
  - split; [|split].
    + split; [intros _|reflexivity]. exists q. split; [|exact L]. now exists f.
    + split; discriminate.
    + intros n H. injection H as <-. exists f, q. repeat split; auto. apply face_normal_ok, S, I.
  - split; [|split].
    + split; [discriminate|]. intros (q' & O & L'). specialize (M q' O). lra.
    + tauto.
    + discriminate.
Qed.
Print Assumptions C141_normal.

Lemma distance_zero p q : distance_between p q = 0 -> p = q.
Proof.
  intros H. pose proof (norm_sq (vsub p q)) as Q. unfold distance_between in H. rewrite H in Q. destruct p as [a b c], q as [x y z].
  clear H. assert (K : (a - x) * (a - x) + (b - y) * (b - y) + (c - z) * (c - z) = 0) by (vsimp; lra). clear Q.
  assert (a - x = 0) by (revert K; generalize (a - x), (b - y), (c - z); clear; intros; nra).
  assert (b - y = 0) by (revert K; generalize (a - x), (b - y), (c - z); clear; intros; nra).
  assert (c - z = 0) by (revert K; generalize (a - x), (b - y), (c - z); clear; intros; nra). apply vec_eq; simpl; lra.
Qed.
Lemma nearest_on N m p : finds_nearest N m p -> on_mesh m p -> exists f i, N m p = (p, 0, i) /\ nth_error m i = Some f /\ in_face f p.
Proof.
  unfold finds_nearest. destruct (N m p) as [[q r] i]. intros (f & E & Q & -> & M) O.
  assert (Z : distance_between p p = 0) by (unfold distance_between, norm; replace (dot _ _) with 0 by (vsimp; ring); apply sqrt_0).
  assert (D : distance_between p q = 0) by (pose proof (M p O); pose proof (norm_nonneg (vsub p q)); unfold distance_between in *; lra).
  rewrite D. apply distance_zero in D. subst q. exists f, i. auto.
Qed.

(** Every hit has a normal, and it belongs to a face with the hit on it. *)
Theorem C141_hit_normal : forall L N m o d p, casts L m o d -> solid_faces m -> is_unit d ->
  In p (mesh_intersections L m o d) -> finds_nearest N m p ->
  exists n f, mesh_normal N m p = Some n /\ In f m /\ in_face f p /\ normal_to f n.
Proof.
  intros L N m o d p C S U I F. apply (C141_intersections L m o d C S U) in I. destruct I as (t & f & _ & _ & I & P & _).
  assert (O : on_mesh m p) by (exists f; auto). destruct (nearest_on N m p F O) as (g & i & E & G & Q).
  pose proof (nth_error_In _ _ G) as IG. exists (face_normal g), g. unfold mesh_normal. rewrite E, G.
  rewrite Rabs_R0. rewrite (proj2 (Rltb_true 0 EPS_ZERO)) by apply EPS_pos. simpl. repeat split; auto. apply face_normal_ok, S, IG.
Qed.
Print Assumptions C141_hit_normal.

(** For a convex solid: no corner lies beyond the plane of a face. *)
Definition corners (m : mesh) : list vec := flat_map (fun f => let '(a, b, c) := f in [a; b; c]) m.
Definition beyond (f : face) (p : vec) : R := let '(a, b, c) := f in dot (cross (vsub b a) (vsub c a)) (vsub p a).
Definition convex (m : mesh) : Prop := forall f p, In f m -> In p (corners m) -> beyond f p <= 0.
Definition strictly_inside (m : mesh) (p : vec) : Prop := forall f, In f m -> beyond f p < 0.
(** [p] is not on an edge between two sides that face different ways *)
Definition within_side (m : mesh) (p : vec) : Prop :=
  forall f g n, In f m -> In g m -> beyond f p = 0 -> beyond g p = 0 -> normal_to f n -> normal_to g n.

Lemma beyond_above f p : beyond f p = above f p.
Proof. destruct f as [[a b] c]. unfold beyond, above. now rewrite edge_cross_alt. Qed.
Lemma convex_on m f p : convex m -> In f m -> on_mesh m p -> beyond f p <= 0.
Proof.
  intros C I (g & G & P). destruct g as [[a b] c]. destruct P as (u & v & w & U & Vv & W & S & ->).
  assert (K : forall x, x = a \/ x = b \/ x = c -> beyond f x <= 0).
  { intros x Hx. apply C; [exact I|]. unfold corners. apply in_flat_map. exists (a, b, c). split; [exact G|]. simpl. intuition. }
  pose proof (K a (or_introl eq_refl)) as A. pose proof (K b (or_intror (or_introl eq_refl))) as B. pose proof (K c (or_intror (or_intror eq_refl))) as Cc.
  destruct f as [[x y] z]. unfold beyond in *. set (n := cross (vsub y x) (vsub z x)) in *.
  replace (vsub (vadd (vscale u a) (vadd (vscale v b) (vscale w c))) x) with
    (vadd (vscale u (vsub a x)) (vadd (vscale v (vsub b x)) (vscale w (vsub c x)))).
  - rewrite !dot_add_r, !dot_scale_r.
    pose proof (Rmult_le_compat_l u _ _ U A). pose proof (Rmult_le_compat_l v _ _ Vv B). pose proof (Rmult_le_compat_l w _ _ W Cc). lra.
  - apply vec_eq; vsimp; replace u with (1 - v - w) by lra; ring.
Qed.
Lemma normal_to_unique f n : edge_cross f <> vzero -> normal_to f n -> edge_cross f = vscale (norm (edge_cross f)) n.
Proof.
  destruct f as [[a b] c]. intros N (U & A & B & P). rewrite edge_cross_alt in *.
  set (e := vsub b a) in *. set (g := vsub c a) in *.
  (* n is perpendicular to e and g, hence along their product *)
  assert (Pr : cross n (cross e g) = vzero).
  { assert (I : cross n (cross e g) = vsub (vscale (dot n g) e) (vscale (dot n e) g)) by (apply vec_eq; vsimp; ring).
    rewrite I, A, B. apply vec_eq; vsimp; ring. }
  set (x := cross e g) in *.
  assert (X : x = vscale (dot n x) n).
  { assert (I : vscale (dot n n) x = vadd (vscale (dot n x) n) (vneg (cross n (cross n x)))) by (clearbody x; apply vec_eq; vsimp; ring).
    rewrite Pr in I. rewrite U in I. assert (I1 := f_equal vx I). assert (I2 := f_equal vy I). assert (I3 := f_equal vz I).
    clearbody x. apply vec_eq; vsimp; lra. }
  assert (Q : norm x = dot n x).
  { rewrite X at 1. rewrite norm_scale_pos by lra. rewrite (norm_unit n U). ring. }
  rewrite Q. exact X.
Qed.
Lemma small_enough (l : list (R * R)) : (forall x y, In (x, y) l -> 0 < x) ->
  exists e, 0 < e /\ forall x y s, In (x, y) l -> 0 < s < e -> s * y < x.
Proof.
  induction l as [|[x y] l IH]; intros H; [exists 1; split; [lra|intros x y s []]|].
  destruct IH as (e & E & K); [intros a b I; apply (H a b); now right|].
  assert (X : 0 < x) by (apply (H x y); now left).
  exists (Rmin e (x / (Rabs y + 1))). pose proof (Rabs_pos y) as Y.
  assert (Q : 0 < x / (Rabs y + 1)) by (apply Rdiv_lt_0_compat; lra).
  split; [now apply Rmin_glb_lt|]. intros a b s I S.
  pose proof (Rmin_l e (x / (Rabs y + 1))). pose proof (Rmin_r e (x / (Rabs y + 1))). destruct I as [I|I]; [|apply (K a b); auto; lra].
  injection I as <- <-. assert (s * (Rabs y + 1) < x).
  { apply (Rmult_lt_reg_r (/ (Rabs y + 1))); [apply Rinv_0_lt_compat; lra|]. rewrite Rmult_assoc, Rinv_r, Rmult_1_r by lra. fold (x / (Rabs y + 1)). lra. }
  pose proof (Rle_abs y). nra.
Qed.

(** is_entering tells whether the ray runs into the solid. *)
Theorem C141_entering : forall N m p d, finds_nearest N m p -> solid_faces m -> convex m -> on_mesh m p -> within_side m p ->
  exists b, mesh_is_entering N m p d = Some b /\
    (b = true <-> exists e, 0 < e /\ forall s, 0 < s < e -> strictly_inside m (vadd p (vscale s d))).
Proof.
  intros N m p d F S C O W. destruct (nearest_on N m p F O) as (f & i & E & G & Q).
  pose proof (nth_error_In _ _ G) as I. unfold mesh_is_entering, mesh_normal. rewrite E, G, Rabs_R0.
  rewrite (proj2 (Rltb_true 0 EPS_ZERO)) by apply EPS_pos. simpl. eexists. split; [reflexivity|].
  set (n := face_normal f). assert (Nn : normal_to f n) by apply face_normal_ok, S, I.
  assert (B0 : beyond f p = 0) by (rewrite beyond_above; apply in_face_plane, Q).
  assert (St : forall g s, beyond g (vadd p (vscale s d)) = beyond g p + s * dot (edge_cross g) d).
  { intros g s. rewrite !beyond_above. apply above_ray. }
  assert (Al : forall g, In g m -> beyond g p = 0 -> edge_cross g = vscale (norm (edge_cross g)) n).
  { intros g Ig Bg. apply normal_to_unique; [apply S, Ig|]. apply (W f g n); auto. }
  destruct (Rltb_spec (dot n d) 0) as [L|L]; (split; [intros H|intros (e & E0 & K)]); try reflexivity; try discriminate.
  - destruct (small_enough (map (fun g => (- beyond g p, dot (edge_cross g) d)) (filter (fun g => Rltb (beyond g p) 0) m))) as (e & E0 & K).
    { intros x y Hx. apply in_map_iff in Hx. destruct Hx as (g & Hg & Ig). injection Hg as <- <-. apply filter_In in Ig. destruct Ig as [_ Ig]. apply Rltb_true in Ig. lra. }
    exists e. split; [exact E0|]. intros s Hs g Ig. rewrite St. destruct (Rle_lt_or_eq_dec _ _ (convex_on m g p C Ig O)) as [Lt|Eq].
    + assert (s * dot (edge_cross g) d < - beyond g p); [|lra]. apply (K _ _ s); [|exact Hs]. apply in_map_iff. exists g. split; [reflexivity|].
      apply filter_In. split; [exact Ig|now apply Rltb_true].
    + rewrite Eq, (Al g Ig Eq), dot_scale_l. pose proof (norm_pos _ (S g Ig)). assert (0 < s * norm (edge_cross g)) by nra. nra.
  - exfalso. specialize (K (e / 2) ltac:(lra) f I). rewrite St, B0, (Al f I B0), dot_scale_l in K. pose proof (norm_pos _ (S f I)).
    assert (0 <= e / 2 * (norm (edge_cross f) * dot n d)); [|lra]. apply Rmult_le_pos; [lra|]. apply Rmult_le_pos; lra.
Qed.
Print Assumptions C141_entering.

(** A ray straight up through the wedge: it enters by the floor and leaves by the slope. *)
Lemma wedge_solid : solid_faces (wedge 0).
Proof.
  intros f I. unfold wedge, by_index in I. simpl in I.
  destruct I as [<-|[<-|[<-|[<-|[]]]]]; intros E; assert (E1 := f_equal vx E); assert (E2 := f_equal vy E); assert (E3 := f_equal vz E);
    unfold edge_cross in *; vsimp; lra.
Qed.
Lemma wedge_convex : convex (wedge 0).
Proof.
  intros f p I P. unfold wedge, by_index in I, P. simpl in I, P.
  destruct I as [<-|[<-|[<-|[<-|[]]]]]; repeat (destruct P as [<-|P]; [unfold beyond; vsimp; lra|]); destruct P.
Qed.
Definition on_floor : vec := V (1 / 4) (1 / 4) 0.
Example C141_example :
  let up := V 0 0 1 in let N := fun _ _ => (on_floor, 0, 0%nat) in
  let l := mesh_intersections intersects_location (wedge 0) (V (1 / 4) (1 / 4) (- 1)) up in
  In on_floor l /\ In (V (1 / 4) (1 / 4) (1 / 2)) l /\ ~ In (V (1 / 4) (1 / 4) 1) l /\
  finds_nearest N (wedge 0) on_floor /\ within_side (wedge 0) on_floor /\
  mesh_is_entering N (wedge 0) on_floor up = Some true /\ mesh_is_entering N (wedge 0) on_floor (vneg up) = Some false.
Proof.
  intros up N l.
  assert (U : is_unit up) by (unfold is_unit, up; vsimp; lra).
  destruct (C141_intersections intersects_location (wedge 0) (V (1 / 4) (1 / 4) (- 1)) up (Permutation_refl _) wedge_solid U) as (Il & _ & _). fold l in Il.
  assert (O : in_face (V 0 0 0, V 0 1 0, V (0 + 1) 0 0) on_floor).
  { exists (1 / 2), (1 / 4), (1 / 4). repeat split; try lra. unfold on_floor. apply vec_eq; vsimp; lra. }
  assert (B : forall f, In f (wedge 0) -> beyond f on_floor = 0 -> f = (V 0 0 0, V 0 1 0, V (0 + 1) 0 0)).
  { intros f I. unfold wedge, by_index in I. simpl in I. destruct I as [<-|[<-|[<-|[<-|[]]]]]; [reflexivity|..]; unfold beyond, on_floor; vsimp; lra. }
  assert (F : finds_nearest N (wedge 0) on_floor).
  { unfold finds_nearest, N. eexists. split; [reflexivity|]. split; [exact O|]. split.
    - unfold distance_between, norm. replace (dot _ _) with 0 by (vsimp; ring). symmetry. apply sqrt_0.
    - intros q _. apply norm_nonneg. }
  split; [|split; [|split; [|split; [exact F|split; [|split]]]]].
  - apply Il. exists 1. eexists. split; [lra|]. split; [apply vec_eq; unfold up; vsimp; lra|]. split; [left; reflexivity|]. split; [exact O|].
    unfold edge_cross, up. vsimp. lra.
  - apply Il. exists (3 / 2). eexists. split; [lra|]. split; [apply vec_eq; unfold up; vsimp; lra|]. split; [right; right; right; left; reflexivity|].
    split; [|unfold edge_cross, up; vsimp; lra]. exists (1 / 4), (1 / 4), (1 / 2). repeat split; try lra. apply vec_eq; vsimp; lra.
  - intros I. apply Il in I. destruct I as (t & f & _ & _ & I & P & _). apply in_face_plane in P. rewrite <- beyond_above in P.
    unfold wedge, by_index in I. simpl in I. destruct I as [<-|[<-|[<-|[<-|[]]]]]; unfold beyond in P; vsimp; lra.
  - intros f g n If Ig Bf Bg. rewrite (B f If Bf), (B g Ig Bg). auto.
  - unfold mesh_is_entering, mesh_normal, N. rewrite Rabs_R0, (proj2 (Rltb_true 0 EPS_ZERO)) by apply EPS_pos. simpl.
    rewrite (proj2 (Rltb_true _ 0)); [reflexivity|]. unfold face_normal. rewrite dot_scale_l.
    assert (P : 0 < / norm (edge_cross (V 0 0 0, V 0 1 0, V (0 + 1) 0 0))) by (apply Rinv_0_lt_compat, norm_pos, wedge_solid; left; reflexivity).
    set (k := / norm _) in *. unfold edge_cross, up. vsimp. clearbody k. lra.
  - unfold mesh_is_entering, mesh_normal, N. rewrite Rabs_R0, (proj2 (Rltb_true 0 EPS_ZERO)) by apply EPS_pos. simpl.
    rewrite (proj2 (Rltb_false _ 0)); [reflexivity|]. unfold face_normal. rewrite dot_scale_l.
    assert (P : 0 < / norm (edge_cross (V 0 0 0, V 0 1 0, V (0 + 1) 0 0))) by (apply Rinv_0_lt_compat, norm_pos, wedge_solid; left; reflexivity).
    set (k := / norm _) in *. unfold edge_cross, up. vsimp. clearbody k. lra.
Qed.
