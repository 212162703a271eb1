(** Lemmas for MeshProps.v: sums over the faces of a closed mesh, and rays that meet faces. *)
From Coq Require Import Reals Lra Lia Psatz List Bool Arith Permutation Sorted.
From Verif Require Import Base Vec PhaseModel GeomModel GeomProofs MeshModel.
Import ListNotations.
Open Scope R_scope.

(** The edges of the faces, each with the direction in which its face runs along it. *)
Definition face_edges (f : face) : list (vec * vec) := let '(a, b, c) := f in [(a, b); (b, c); (c, a)].
Definition edges (m : mesh) : list (vec * vec) := flat_map face_edges m.
Definition turned (e : vec * vec) : vec * vec := (snd e, fst e).
(** Every edge is run along as often in one direction as in the other: a closed surface whose
    faces are all listed the same way round. *)
Definition closed (m : mesh) : Prop := Permutation (edges m) (map turned (edges m)).

Lemma total_app l r : total (l ++ r) = total l + total r.
Proof. induction l as [|x l IH]; simpl; [lra|]. rewrite IH. lra. Qed.
Lemma total_perm l r : Permutation l r -> total l = total r.
Proof. induction 1; simpl; lra. Qed.
Lemma total_plus {A} (f g : A -> R) l : total (map (fun x => f x + g x) l) = total (map f l) + total (map g l).
Proof. induction l as [|x l IH]; simpl; [lra|]. rewrite IH. lra. Qed.
Lemma total_scale {A} k (f : A -> R) l : total (map (fun x => k * f x) l) = k * total (map f l).
Proof. induction l as [|x l IH]; simpl; [lra|]. rewrite IH. lra. Qed.
Lemma total_opp {A} (f : A -> R) l : total (map (fun x => - f x) l) = - total (map f l).
Proof. induction l as [|x l IH]; simpl; [lra|]. rewrite IH. lra. Qed.
Lemma total_ext {A} (f g : A -> R) l : (forall x, f x = g x) -> total (map f l) = total (map g l).
Proof. intros E. now rewrite (map_ext _ _ E). Qed.

Lemma stokes (F : face -> R) (g : vec -> vec -> R) m :
  closed m -> (forall p q, g q p = - g p q) -> (forall a b c, F (a, b, c) = g a b + g b c + g c a) -> total (map F m) = 0.
Proof.
  intros C A E.
  assert (S : total (map F m) = total (map (fun e => g (fst e) (snd e)) (edges m))).
  { clear C. induction m as [|[[a b] c] m IH]; [reflexivity|]. simpl map. simpl total. rewrite IH, E.
    unfold edges. simpl flat_map. simpl map. simpl total. fold (edges m). lra. }
  assert (T : total (map (fun e => g (fst e) (snd e)) (edges m)) = - total (map (fun e => g (fst e) (snd e)) (edges m))).
  { rewrite <- total_opp. transitivity (total (map (fun e => g (fst e) (snd e)) (map turned (edges m)))).
    - apply total_perm, Permutation_map, C.
    - rewrite map_map. apply total_ext. intros [p q]. simpl. apply A. }
  lra.
Qed.

(** Simpson's rule along an edge *)
Definition along (G : vec -> vec) (p q : vec) : R :=
  dot (vadd (G p) (vadd (vscale 4 (G (vscale (/2) (vadd p q)))) (G q))) (vsub q p) / 6.
Lemma along_turn G p q : along G q p = - along G p q.
Proof.
  unfold along. replace (vadd q p) with (vadd p q) by (apply vec_eq; vsimp; ring). vsimp. field.
Qed.
Lemma stokes_along (F : face -> R) (G : vec -> vec) m :
  closed m -> (forall a b c, F (a, b, c) = along G a b + along G b c + along G c a) -> total (map F m) = 0.
Proof. intros C E. exact (stokes F (along G) m C (along_turn G) E). Qed.

Ltac poly := intros [] [] []; unfold along, edge_cross, f1, f2; vsimp; field.

Lemma no_net_area m : closed m ->
  total (map (fun f => vx (edge_cross f)) m) = 0 /\ total (map (fun f => vy (edge_cross f)) m) = 0 /\
  total (map (fun f => vz (edge_cross f)) m) = 0.
Proof.
  intros C. split; [|split].
  - apply (stokes_along _ (fun p => V 0 (- vz p) (vy p)) m C). poly.
  - apply (stokes_along _ (fun p => V (vz p) 0 (- vx p)) m C). poly.
  - apply (stokes_along _ (fun p => V (- vy p) (vx p) 0) m C). poly.
Qed.
Lemma volume_y m : closed m -> total (map (fun f => vy (edge_cross f) * f1 vy f) m) = 6 * volume m.
Proof.
  intros C. unfold volume.
  assert (H : total (map (fun f => vy (edge_cross f) * f1 vy f + - (vx (edge_cross f) * f1 vx f)) m) = 0).
  { apply (stokes_along _ (fun p => V (2 * (vy p * vz p)) (2 * (vx p * vz p)) (- 4 * (vx p * vy p))) m C). poly. }
  rewrite total_plus, total_opp in H. lra.
Qed.
Lemma volume_z m : closed m -> total (map (fun f => vz (edge_cross f) * f1 vz f) m) = 6 * volume m.
Proof.
  intros C. unfold volume.
  assert (H : total (map (fun f => vz (edge_cross f) * f1 vz f + - (vx (edge_cross f) * f1 vx f)) m) = 0).
  { apply (stokes_along _ (fun p => V (- 2 * (vy p * vz p)) (4 * (vx p * vz p)) (- 2 * (vx p * vy p))) m C). poly. }
  rewrite total_plus, total_opp in H. lra.
Qed.

(** ** Centre of mass *)
Definition det3 (a b c : vec) : R := dot a (cross b c).
(** six times the volume, with sign, of the tetrahedron between the origin and a face *)
Definition tetra (f : face) : R := let '(a, b, c) := f in det3 a b c.
Lemma volume_tetra m : closed m -> volume m = total (map tetra m) / 6.
Proof.
  intros C. unfold volume.
  assert (H : total (map (fun f => vx (edge_cross f) * f1 vx f + - tetra f) m) = 0).
  { apply (stokes_along _ (fun p => V 0 (- 2 * (vx p * vz p)) (2 * (vx p * vy p))) m C). unfold tetra, det3. poly. }
  rewrite total_plus, total_opp in H. lra.
Qed.
Lemma moment_tetra m : closed m ->
  moment vx m = total (map (fun f => tetra f * f1 vx f) m) / 24 /\ moment vy m = total (map (fun f => tetra f * f1 vy f) m) / 24 /\
  moment vz m = total (map (fun f => tetra f * f1 vz f) m) / 24.
Proof.
  intros C. unfold moment. split; [|split].
  - assert (H : total (map (fun f => vx (edge_cross f) * f2 vx f + - (tetra f * f1 vx f)) m) = 0).
    { apply (stokes_along _ (fun p => vscale (3 * (vx p * vx p)) (V 0 (- vz p) (vy p))) m C). unfold tetra, det3. poly. }
    rewrite total_plus, total_opp in H. lra.
  - assert (H : total (map (fun f => vy (edge_cross f) * f2 vy f + - (tetra f * f1 vy f)) m) = 0).
    { apply (stokes_along _ (fun p => vscale (3 * (vy p * vy p)) (V (vz p) 0 (- vx p))) m C). unfold tetra, det3. poly. }
    rewrite total_plus, total_opp in H. lra.
  - assert (H : total (map (fun f => vz (edge_cross f) * f2 vz f + - (tetra f * f1 vz f)) m) = 0).
    { apply (stokes_along _ (fun p => vscale (3 * (vz p * vz p)) (V (- vy p) (vx p) 0)) m C). unfold tetra, det3. poly. }
    rewrite total_plus, total_opp in H. lra.
Qed.

Lemma edge_cross_move c f : edge_cross (move_face c f) = edge_cross f.
Proof. destruct f as [[a b] d]. unfold edge_cross, move_face. f_equal; apply vec_eq; vsimp; ring. Qed.
Lemma volume_move c m : closed m -> volume (move c m) = volume m.
Proof.
  intros C. destruct (no_net_area m C) as (X & _ & _). unfold volume, move. rewrite map_map.
  rewrite (total_ext _ (fun f => vx (edge_cross f) * f1 vx f + (- 3 * vx c) * vx (edge_cross f))).
  - rewrite total_plus, total_scale, X. field.
  - intros f. rewrite edge_cross_move. destruct f as [[a b] d]. unfold f1, move_face. simpl. ring.
Qed.
Lemma moment_move (k : vec -> R) c m :
  (forall p q, k (vsub p q) = k p - k q) ->
  total (map (fun f => k (edge_cross f)) m) = 0 -> total (map (fun f => k (edge_cross f) * f1 k f) m) = 6 * volume m ->
  moment k (move c m) = moment k m - k c * volume m.
Proof.
  intros L A V. unfold moment, move. rewrite map_map.
  rewrite (total_ext _ (fun f => k (edge_cross f) * f2 k f + ((- 4 * k c) * (k (edge_cross f) * f1 k f) + (6 * k c * k c) * k (edge_cross f)))).
  - rewrite !total_plus, !total_scale, A, V. field.
  - intros f. rewrite edge_cross_move. destruct f as [[a b] d]. unfold f1, f2, move_face. rewrite !L. ring.
Qed.
Lemma center_mass_move c m : closed m -> volume m <> 0 -> center_mass (move c m) = vsub (center_mass m) c.
Proof.
  intros C NZ. destruct (no_net_area m C) as (X & Y & Z). unfold center_mass. rewrite volume_move by exact C.
  rewrite (proj2 (Reqb_false _ _) NZ).
  rewrite (moment_move vx), (moment_move vy), (moment_move vz); auto using volume_y, volume_z.
  - apply vec_eq; simpl; field; exact NZ.
  - unfold volume. field.
Qed.
Lemma move_move c e m : move e (move c m) = move (vadd c e) m.
Proof.
  unfold move. rewrite map_map. apply map_ext. intros [[p q] r]. simpl. f_equal; [f_equal|]; apply vec_eq; vsimp; ring.
Qed.
Lemma move_zero m : move vzero m = m.
Proof.
  unfold move. rewrite <- (map_id m) at 2. apply map_ext. intros [[[] []] []]. simpl. f_equal; [f_equal|]; apply vec_eq; vsimp; ring.
Qed.
Lemma edges_move c m : edges (move c m) = map (fun e => (vsub (fst e) c, vsub (snd e) c)) (edges m).
Proof.
  unfold edges, move. induction m as [|[[p q] r] m IH]; [reflexivity|]. simpl. now rewrite IH.
Qed.
Lemma closed_move c m : closed m -> closed (move c m).
Proof.
  unfold closed. intros C. rewrite edges_move, map_map.
  replace (map (fun x => turned (vsub (fst x) c, vsub (snd x) c)) (edges m))
    with (map (fun e => (vsub (fst e) c, vsub (snd e) c)) (map turned (edges m))) by (rewrite map_map; reflexivity).
  apply Permutation_map, C.
Qed.

(** ** Points of a face *)
Definition in_face (f : face) (p : vec) : Prop :=
  let '(a, b, c) := f in exists u v w, 0 <= u /\ 0 <= v /\ 0 <= w /\ u + v + w = 1 /\
    p = vadd (vscale u a) (vadd (vscale v b) (vscale w c)).
Definition on_mesh (m : mesh) (p : vec) : Prop := exists f, In f m /\ in_face f p.

Lemma in_face_move c f p : in_face (move_face c f) p <-> in_face f (vadd p c).
Proof.
  destruct f as [[a b] d]. unfold move_face, in_face. split; intros (u & v & w & U & Vv & W & S & E); exists u, v, w; repeat split; auto.
  - rewrite E. apply vec_eq; vsimp; replace u with (1 - v - w) by lra; ring.
  - assert (E1 := f_equal vx E). assert (E2 := f_equal vy E). assert (E3 := f_equal vz E). destruct p. apply vec_eq; vsimp;
    replace u with (1 - v - w) in * by lra; lra.
Qed.
Lemma on_mesh_move c m p : on_mesh (move c m) p <-> on_mesh m (vadd p c).
Proof.
  unfold on_mesh, move. split.
  - intros (f & I & P). apply in_map_iff in I. destruct I as (g & <- & I). exists g. split; [exact I|]. now apply in_face_move.
  - intros (f & I & P). exists (move_face c f). split; [now apply in_map|]. now apply in_face_move.
Qed.

(** the plane of a face *)
Definition above (f : face) (p : vec) : R := let '(a, _, _) := f in dot (edge_cross f) (vsub p a).
Lemma in_face_plane f p : in_face f p -> above f p = 0.
Proof.
  destruct f as [[a b] c]. intros (u & v & w & _ & _ & _ & S & ->). unfold above, edge_cross. vsimp.
  replace u with (1 - v - w) by lra. ring.
Qed.
Lemma gram a b c : let e0 := vsub b a in let e1 := vsub c a in
  dot e0 e0 * dot e1 e1 - dot e0 e1 * dot e0 e1 = dot (edge_cross (a, b, c)) (edge_cross (a, b, c)).
Proof. unfold edge_cross. vsimp. ring. Qed.
Lemma dot_pos v : v <> vzero -> 0 < dot v v.
Proof.
  intros H. destruct v as [x y z]. destruct (Rle_lt_dec (dot (V x y z) (V x y z)) 0) as [L|]; [|assumption].
  exfalso. apply H. vsimp. assert (x = 0) by nra. assert (y = 0) by nra. assert (z = 0) by nra. now subst.
Qed.

(** the third direction is lost only for a vector along the face's normal *)
Lemma span e0 e1 w : dot (cross e0 e1) w = 0 ->
  let D := dot e0 e0 * dot e1 e1 - dot e0 e1 * dot e0 e1 in
  vscale D w = vadd (vscale (dot e1 e1 * dot e0 w - dot e0 e1 * dot e1 w) e0) (vscale (dot e0 e0 * dot e1 w - dot e0 e1 * dot e0 w) e1).
Proof.
  intros H D.
  assert (I : vadd (vscale D w) (vneg (vadd (vscale (dot e1 e1 * dot e0 w - dot e0 e1 * dot e1 w) e0) (vscale (dot e0 e0 * dot e1 w - dot e0 e1 * dot e0 w) e1)))
    = vscale (dot (cross e0 e1) w) (cross e0 e1)).
  { unfold D. destruct e0, e1, w. apply vec_eq; vsimp; ring. }
  rewrite H in I. assert (I1 := f_equal vx I). assert (I2 := f_equal vy I). assert (I3 := f_equal vz I).
  apply vec_eq; vsimp; lra.
Qed.
Lemma barycentric_in f p : edge_cross f <> vzero -> above f p = 0 ->
  (let '(u, v, w) := barycentric f p in 0 <= u /\ 0 <= v /\ 0 <= w) <-> in_face f p.
Proof.
  destruct f as [[a b] c]. intros N P. unfold barycentric, in_face.
  pose proof (gram a b c) as G. cbv zeta in G. pose proof (dot_pos _ N) as DP. rewrite <- G in DP. clear G.
  assert (P' : dot (cross (vsub b a) (vsub c a)) (vsub p a) = 0).
  { rewrite <- P. unfold above, edge_cross. vsimp. ring. }
  pose proof (span _ _ _ P') as S. cbv zeta in S.
  set (e0 := vsub b a) in *. set (e1 := vsub c a) in *. set (w := vsub p a) in *.
  set (D := dot e0 e0 * dot e1 e1 - dot e0 e1 * dot e0 e1) in *.
  split.
  - intros (A & B & C).
    exists (1 - (dot e1 e1 * dot e0 w - dot e0 e1 * dot e1 w) / D - (dot e0 e0 * dot e1 w - dot e0 e1 * dot e0 w) / D),
      ((dot e1 e1 * dot e0 w - dot e0 e1 * dot e1 w) / D), ((dot e0 e0 * dot e1 w - dot e0 e1 * dot e0 w) / D).
    repeat split; auto; [ring|].
    set (n1 := dot e1 e1 * dot e0 w - dot e0 e1 * dot e1 w) in *. set (n2 := dot e0 e0 * dot e1 w - dot e0 e1 * dot e0 w) in *.
    assert (Wv : w = vadd (vscale (n1 / D) e0) (vscale (n2 / D) e1)).
    { assert (S1 := f_equal vx S). assert (S2 := f_equal vy S). assert (S3 := f_equal vz S).
      apply vec_eq; [clear S2 S3; clearbody n1 n2 D w e0 e1|clear S1 S3; clearbody n1 n2 D w e0 e1|clear S1 S2; clearbody n1 n2 D w e0 e1]; vsimp.
      - apply (Rmult_eq_reg_l D); [|lra]. rewrite S1. field. lra.
      - apply (Rmult_eq_reg_l D); [|lra]. rewrite S2. field. lra.
      - apply (Rmult_eq_reg_l D); [|lra]. rewrite S3. field. lra. }
    assert (Pv : p = vadd a w) by (unfold w; apply vec_eq; vsimp; ring).
    rewrite Pv. generalize Wv. clearbody n1 n2 D. clear. intros ->. unfold e0, e1. apply vec_eq; vsimp; ring.
  - intros (u & v & x & U & Vv & X & Sm & E).
    assert (Ew : w = vadd (vscale v e0) (vscale x e1)).
    { unfold w, e0, e1. rewrite E. apply vec_eq; vsimp; replace u with (1 - v - x) by lra; ring. }
    assert (N1 : dot e1 e1 * dot e0 w - dot e0 e1 * dot e1 w = v * D).
    { rewrite Ew. unfold D. rewrite !dot_add_r, !dot_scale_r, (dot_comm e1 e0). ring. }
    assert (N2 : dot e0 e0 * dot e1 w - dot e0 e1 * dot e0 w = x * D).
    { rewrite Ew. unfold D. rewrite !dot_add_r, !dot_scale_r, (dot_comm e1 e0). ring. }
    rewrite N1, N2. replace (v * D / D) with v by (field; lra). replace (x * D / D) with x by (field; lra). lra.
Qed.

Lemma above_ray f o d t : above f (at_ray o d t) = above f o + t * dot (edge_cross f) d.
Proof. destruct f as [[a b] c]. unfold above, at_ray. generalize (edge_cross (a, b, c)). intros n. vsimp. ring. Qed.

Lemma hit_face_spec o d f t : edge_cross f <> vzero ->
  (In t (hit_face o d f) <-> dot (edge_cross f) d <> 0 /\ 0 <= t /\ in_face f (at_ray o d t)).
Proof.
  intros N. destruct f as [[a b] c]. unfold hit_face. set (f := (a, b, c)) in *.
  destruct (Reqb_spec (dot (edge_cross f) d) 0) as [Z|Z]; [simpl; tauto|].
  set (s := dot (edge_cross f) (vsub a o) / dot (edge_cross f) d).
  assert (PL : forall t, above f (at_ray o d t) = 0 <-> t = s).
  { intros r. rewrite above_ray. assert (A : above f o = - dot (edge_cross f) (vsub a o)).
    { unfold above, f. generalize (edge_cross (a, b, c)). intros n. vsimp. ring. }
    unfold s. rewrite A. split; intros E.
    - apply (Rmult_eq_reg_r (dot (edge_cross f) d)); [|exact Z]. unfold Rdiv. rewrite Rmult_assoc, Rinv_l, Rmult_1_r by exact Z. lra.
    - rewrite E. field. exact Z. }
  pose proof (barycentric_in f (at_ray o d s) N (proj2 (PL s) eq_refl)) as B.
  destruct (barycentric f (at_ray o d s)) as [[u v] w].
  split.
  - intros I. destruct (Rleb 0 u && Rleb 0 v && Rleb 0 w && Rleb 0 s) eqn:E; [|destruct I].
    destruct I as [<-|[]]. rewrite !andb_true_iff, !Rleb_true in E. destruct E as (((U & Vv) & W) & S). split; [exact Z|]. split; [exact S|]. apply B. auto.
  - intros (_ & P & F). assert (t = s) by (apply PL, in_face_plane, F). subst t. apply B in F.
    destruct F as (U & Vv & W). rewrite (proj2 (Rleb_true 0 u) U), (proj2 (Rleb_true 0 v) Vv), (proj2 (Rleb_true 0 w) W), (proj2 (Rleb_true 0 s) P). now left.
Qed.
Lemma merge_in t l : In t (merge l) <-> In t l.
Proof.
  induction l as [|x l IH]; [tauto|]. simpl. destruct (existsb (Reqb x) l) eqn:E.
  - rewrite IH. split; [tauto|]. intros [->|I]; [|exact I]. apply existsb_exists in E. destruct E as (y & I & Y). apply Reqb_true in Y. now subst.
  - simpl. rewrite IH. tauto.
Qed.
Lemma merge_nodup l : NoDup (merge l).
Proof.
  induction l as [|x l IH]; [constructor|]. simpl. destruct (existsb (Reqb x) l) eqn:E; [exact IH|].
  constructor; [|exact IH]. rewrite merge_in. intros I. assert (existsb (Reqb x) l = true) by (apply existsb_exists; exists x; split; [exact I|now apply Reqb_true]). congruence.
Qed.
Definition solid_faces (m : mesh) : Prop := forall f, In f m -> edge_cross f <> vzero.
Lemma locations_spec m o d : solid_faces m ->
  exists ts, intersects_location m o d = map (at_ray o d) ts /\ NoDup ts /\
    forall t, In t ts <-> 0 <= t /\ exists f, In f m /\ dot (edge_cross f) d <> 0 /\ in_face f (at_ray o d t).
Proof.
  intros S. exists (merge (flat_map (hit_face o d) m)). split; [reflexivity|]. split; [apply merge_nodup|].
  intros t. rewrite merge_in, in_flat_map. split.
  - intros (f & I & H). apply (hit_face_spec o d f t (S f I)) in H. destruct H as (A & B & C). split; [exact B|]. exists f. auto.
  - intros (P & f & I & A & C). exists f. split; [exact I|]. apply hit_face_spec; auto.
Qed.
