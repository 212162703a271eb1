(** C142: a box is a mesh of twelve faces; rays cast at them meet the box as the formula for
    boxes in the compiled engine has it. *)
From Coq Require Import Reals Lra Lia Psatz List Bool Arith Permutation Sorted.
From Verif Require Import Base Vec DistModel MaterialModel MaterialProofs OpticsProofs PhaseModel PhaseProofs TransformModel GeomModel GeomProofs TracerModel KernelModel KernelProps
  TracerProofs KernelSim BundleModel CompilerModel EndModel EndProofs EndProps MeshModel MeshProofs MeshProps.
Import ListNotations.
Open Scope R_scope.

Lemma creation_box_by_index size : creation_box size = by_index (corner size) box_faces.
Proof. reflexivity. Qed.
Lemma box_closed size : closed (creation_box size).
Proof. rewrite creation_box_by_index. apply closed_by_index. reflexivity. Qed.
Lemma box_weight size : weight (creation_box size) = 6 * (vx size * vy size * vz size).
Proof. unfold weight, creation_box, box_faces, corner, tetra, det3. destruct size as [x y z]. simpl. vsimp. field. Qed.

(** A box is not moved by Mesh.__init__, whatever its size. *)
Theorem C142_box_stays : forall size, box_mesh size = creation_box size.
Proof.
  intros size. unfold box_mesh, wrap. replace (center_mass (creation_box size)) with vzero; [apply move_zero|].
  assert (Z : moment vx (creation_box size) = 0 /\ moment vy (creation_box size) = 0 /\ moment vz (creation_box size) = 0).
  { unfold moment, creation_box, box_faces, corner, edge_cross, f2. destruct size as [x y z]. simpl. repeat split; vsimp; field. }
  destruct Z as (X & Y & Z). unfold center_mass. rewrite X, Y, Z. destruct (Reqb _ _); [reflexivity|]. unfold vzero, Rdiv. now rewrite Rmult_0_l.
Qed.
Print Assumptions C142_box_stays.

(** ** The twelve faces cover the six sides *)
Definition side (size p d : vec) : Prop :=
  vx d <> 0 /\ (vx p = vx size / 2 \/ vx p = - (vx size / 2)) \/
  vy d <> 0 /\ (vy p = vy size / 2 \/ vy p = - (vy size / 2)) \/
  vz d <> 0 /\ (vz p = vz size / 2 \/ vz p = - (vz size / 2)).

Ltac weights a b c := exists a, b, c; repeat split; try lra; apply vec_eq; vsimp; field; repeat split; lra.
Ltac member := unfold creation_box, box_faces, corner; simpl; auto 14.

Lemma faces_in size p d : 0 < vx size -> 0 < vy size -> 0 < vz size ->
  (exists f, In f (creation_box size) /\ dot (edge_cross f) d <> 0 /\ in_face f p) -> in_box size p /\ side size p d.
Proof.
  destruct size as [sx sy sz]. cbn [vx vy vz]. intros Sx Sy Sz (f & I & D & P). unfold creation_box, box_faces, corner in I. simpl in I.
  unfold in_box, side. cbn [vx vy vz].
  repeat (destruct I as [<-|I]; [
    destruct P as (u & v & w & U & Vv & W & S & ->);
    pose proof (Rmult_le_pos _ _ U (Rlt_le _ _ Sx)); pose proof (Rmult_le_pos _ _ U (Rlt_le _ _ Sy)); pose proof (Rmult_le_pos _ _ U (Rlt_le _ _ Sz));
    pose proof (Rmult_le_pos _ _ Vv (Rlt_le _ _ Sx)); pose proof (Rmult_le_pos _ _ Vv (Rlt_le _ _ Sy)); pose proof (Rmult_le_pos _ _ Vv (Rlt_le _ _ Sz));
    pose proof (Rmult_le_pos _ _ W (Rlt_le _ _ Sx)); pose proof (Rmult_le_pos _ _ W (Rlt_le _ _ Sy)); pose proof (Rmult_le_pos _ _ W (Rlt_le _ _ Sz));
    unfold edge_cross in D; vsimp; replace u with (1 - v - w) in * by lra;
    split; [repeat split; lra|];
    first [left; split; [intros Z; apply D; rewrite Z; lra|lra]
          |right; left; split; [intros Z; apply D; rewrite Z; lra|lra]
          |right; right; split; [intros Z; apply D; rewrite Z; lra|lra]] |]).
  destruct I.
Qed.
(** [a] of the way from one side to the other *)
Lemma fraction s x : 0 < s -> - (s / 2) <= x <= s / 2 -> exists a, 0 <= a <= 1 /\ x = - (s / 2) + a * s.
Proof.
  intros S B. exists (x / s + 1 / 2). split.
  - assert (E : x = x / s * s) by (field; lra). split; nra.
  - field. lra.
Qed.
Lemma faces_cover size p d : 0 < vx size -> 0 < vy size -> 0 < vz size -> in_box size p -> side size p d ->
  exists f, In f (creation_box size) /\ dot (edge_cross f) d <> 0 /\ in_face f p.
Proof.
  destruct size as [sx sy sz], p as [px py pz], d as [dx dy dz]. unfold in_box, side. cbn [vx vy vz]. intros Sx Sy Sz (Bx & By & Bz) H.
  destruct (fraction sx px Sx Bx) as (a & Ha & ->), (fraction sy py Sy By) as (b & Hb & ->), (fraction sz pz Sz Bz) as (c & Hc & ->).
  assert (NZ : forall k l m, 0 < k -> 0 < l -> m <> 0 -> k * l * m <> 0 /\ - (k * l * m) <> 0).
  { intros k l m K Lk M. assert (k * l * m <> 0) by (repeat apply Rmult_integral_contrapositive_currified; lra). lra. }
  destruct H as [[D [E|E]]|[[D [E|E]]|[D [E|E]]]].
  - assert (a = 1) by nra. subst a. destruct (Rle_dec (b + c) 1).
    + exists (corner (V sx sy sz) 6, corner (V sx sy sz) 5, corner (V sx sy sz) 4). split; [member|]. split.
      * destruct (NZ sy sz dx Sy Sz D). unfold edge_cross, corner. simpl. vsimp. intros Z. lra.
      * unfold corner; simpl. weights b c (1 - b - c).
    + exists (corner (V sx sy sz) 7, corner (V sx sy sz) 5, corner (V sx sy sz) 6). split; [member|]. split.
      * destruct (NZ sy sz dx Sy Sz D). unfold edge_cross, corner. simpl. vsimp. intros Z. lra.
      * unfold corner; simpl. weights (b + c - 1) (1 - b) (1 - c).
  - assert (a = 0) by nra. subst a. destruct (Rle_dec b c).
    + exists (corner (V sx sy sz) 1, corner (V sx sy sz) 3, corner (V sx sy sz) 0). split; [member|]. split.
      * destruct (NZ sy sz dx Sy Sz D). unfold edge_cross, corner. simpl. vsimp. intros Z. lra.
      * unfold corner; simpl. weights (c - b) b (1 - c).
    + exists (corner (V sx sy sz) 0, corner (V sx sy sz) 3, corner (V sx sy sz) 2). split; [member|]. split.
      * destruct (NZ sy sz dx Sy Sz D). unfold edge_cross, corner. simpl. vsimp. intros Z. lra.
      * unfold corner; simpl. weights (1 - b) c (b - c).
  - assert (b = 1) by nra. subst b. destruct (Rle_dec a c).
    + exists (corner (V sx sy sz) 3, corner (V sx sy sz) 7, corner (V sx sy sz) 2). split; [member|]. split.
      * destruct (NZ sx sz dy Sx Sz D). unfold edge_cross, corner. simpl. vsimp. intros Z. lra.
      * unfold corner; simpl. weights (c - a) a (1 - c).
    + exists (corner (V sx sy sz) 2, corner (V sx sy sz) 7, corner (V sx sy sz) 6). split; [member|]. split.
      * destruct (NZ sx sz dy Sx Sz D). unfold edge_cross, corner. simpl. vsimp. intros Z. lra.
      * unfold corner; simpl. weights (1 - a) c (a - c).
  - assert (b = 0) by nra. subst b. destruct (Rle_dec (a + c) 1).
    + exists (corner (V sx sy sz) 4, corner (V sx sy sz) 1, corner (V sx sy sz) 0). split; [member|]. split.
      * destruct (NZ sx sz dy Sx Sz D). unfold edge_cross, corner. simpl. vsimp. intros Z. lra.
      * unfold corner; simpl. weights a c (1 - a - c).
    + exists (corner (V sx sy sz) 5, corner (V sx sy sz) 1, corner (V sx sy sz) 4). split; [member|]. split.
      * destruct (NZ sx sz dy Sx Sz D). unfold edge_cross, corner. simpl. vsimp. intros Z. lra.
      * unfold corner; simpl. weights (a + c - 1) (1 - a) (1 - c).
  - assert (c = 1) by nra. subst c. destruct (Rle_dec a b).
    + exists (corner (V sx sy sz) 1, corner (V sx sy sz) 7, corner (V sx sy sz) 3). split; [member|]. split.
      * destruct (NZ sx sy dz Sx Sy D). unfold edge_cross, corner. simpl. vsimp. intros Z. lra.
      * unfold corner; simpl. weights (1 - b) a (b - a).
    + exists (corner (V sx sy sz) 5, corner (V sx sy sz) 7, corner (V sx sy sz) 1). split; [member|]. split.
      * destruct (NZ sx sy dz Sx Sy D). unfold edge_cross, corner. simpl. vsimp. intros Z. lra.
      * unfold corner; simpl. weights (a - b) b (1 - a).
  - assert (c = 0) by nra. subst c. destruct (Rle_dec (a + b) 1).
    + exists (corner (V sx sy sz) 2, corner (V sx sy sz) 4, corner (V sx sy sz) 0). split; [member|]. split.
      * destruct (NZ sx sy dz Sx Sy D). unfold edge_cross, corner. simpl. vsimp. intros Z. lra.
      * unfold corner; simpl. weights b a (1 - a - b).
    + exists (corner (V sx sy sz) 6, corner (V sx sy sz) 4, corner (V sx sy sz) 2). split; [member|]. split.
      * destruct (NZ sx sy dz Sx Sy D). unfold edge_cross, corner. simpl. vsimp. intros Z. lra.
      * unfold corner; simpl. weights (a + b - 1) (1 - b) (1 - a).
Qed.
Lemma box_solid size : 0 < vx size -> 0 < vy size -> 0 < vz size -> solid_faces (creation_box size).
Proof.
  destruct size as [sx sy sz]. cbn [vx vy vz]. intros Sx Sy Sz f I E. unfold creation_box, box_faces, corner in I. simpl in I.
  assert (0 < sx * sy) by nra. assert (0 < sx * sz) by nra. assert (0 < sy * sz) by nra.
  assert (E1 := f_equal vx E). assert (E2 := f_equal vy E). assert (E3 := f_equal vz E). clear E.
  repeat (destruct I as [<-|I]; [unfold edge_cross in *; vsimp; lra|]). destruct I.
Qed.

(** The surface of the mesh is the surface of the box. *)
Theorem C142_surface : forall size p, 0 < vx size -> 0 < vy size -> 0 < vz size ->
  (on_mesh (box_mesh size) p <-> in_box size p /\
    (Rabs (vx p) = vx size / 2 \/ Rabs (vy p) = vy size / 2 \/ Rabs (vz p) = vz size / 2)).
Proof.
  intros size p Sx Sy Sz. rewrite C142_box_stays.
  assert (Ab : forall x s, 0 < s -> (Rabs x = s / 2 <-> x = s / 2 \/ x = - (s / 2))).
  { intros x s S. unfold Rabs. destruct (Rcase_abs x); split; intros; try lra. }
  rewrite !Ab by assumption. set (d := V 1 1 1).
  assert (Sd : side size p d <-> (vx p = vx size / 2 \/ vx p = - (vx size / 2)) \/ (vy p = vy size / 2 \/ vy p = - (vy size / 2)) \/ (vz p = vz size / 2 \/ vz p = - (vz size / 2))).
  { unfold side, d. cbn [vx vy vz]. assert (1 <> 0) by lra. tauto. }
  rewrite <- Sd. split.
  - intros (f & I & P). apply faces_in; auto. exists f. split; [exact I|]. split; [|exact P].
    clear Sd. destruct size as [sx sy sz]. cbn [vx vy vz] in *. unfold creation_box, box_faces, corner in I. simpl in I.
    assert (0 < sx * sy) by nra. assert (0 < sx * sz) by nra. assert (0 < sy * sz) by nra.
    repeat (destruct I as [<-|I]; [unfold edge_cross, d; clear P; vsimp; lra|]). destruct I.
  - intros (B & S). destruct (faces_cover size p d Sx Sy Sz B S) as (f & I & _ & P). exists f. auto.
Qed.
Print Assumptions C142_surface.

(** ** Crossings *)
Lemma axis_cases s o d t : 0 < s -> - (s / 2) <= o + t * d <= s / 2 ->
  (exists e, 0 < e /\ forall r, Rabs (r - t) < e -> - (s / 2) <= o + r * d <= s / 2) \/
  (d <> 0 /\ (o + t * d = s / 2 \/ o + t * d = - (s / 2))).
Proof.
  intros S B. destruct (Req_dec d 0) as [->|D]; [left; exists 1; split; [lra|intros r _; lra]|].
  destruct (Req_dec (o + t * d) (s / 2)) as [E|N1]; [right; auto|]. destruct (Req_dec (o + t * d) (- (s / 2))) as [E|N2]; [right; auto|].
  left. set (g := Rmin (s / 2 - (o + t * d)) (o + t * d + s / 2)).
  assert (G : 0 < g) by (apply Rmin_glb_lt; lra). pose proof (Rmin_l (s / 2 - (o + t * d)) (o + t * d + s / 2)) as G1.
  pose proof (Rmin_r (s / 2 - (o + t * d)) (o + t * d + s / 2)) as G2. fold g in G1, G2.
  pose proof (Rabs_pos_lt d D) as A. exists (g / Rabs d). split; [now apply Rdiv_lt_0_compat|].
  intros r R. assert (K : Rabs ((r - t) * d) < g).
  { rewrite Rabs_mult. apply (Rmult_lt_compat_r (Rabs d)) in R; [|exact A]. unfold Rdiv in R. rewrite Rmult_assoc, Rinv_l, Rmult_1_r in R by lra. exact R. }
  apply Rabs_def2 in K. lra.
Qed.
Lemma axis_leaves s o d t e : 0 < s -> d <> 0 -> o + t * d = s / 2 \/ o + t * d = - (s / 2) -> 0 < e ->
  exists r, Rabs (r - t) < e /\ ~ - (s / 2) <= o + r * d <= s / 2.
Proof.
  intros S D H E.
  assert (P : Rabs (t + e / 2 - t) < e /\ Rabs (t - e / 2 - t) < e).
  { replace (t + e / 2 - t) with (e / 2) by ring. replace (t - e / 2 - t) with (- (e / 2)) by ring. rewrite Rabs_Ropp, Rabs_right by lra. lra. }
  destruct P as [P Q]. destruct (Rtotal_order d 0) as [L|[L|L]]; [|contradiction|].
  - destruct H as [H|H]; [exists (t - e / 2)|exists (t + e / 2)]; (split; [assumption|]); assert (e / 2 * d < 0) by nra; lra.
  - destruct H as [H|H]; [exists (t + e / 2)|exists (t - e / 2)]; (split; [assumption|]); assert (0 < e / 2 * d) by nra; lra.
Qed.
Lemma crosses_side size o d t : 0 < vx size -> 0 < vy size -> 0 < vz size ->
  (crosses size o d t <-> in_box size (at_ray o d t) /\ side size (at_ray o d t) d).
Proof.
  intros Sx Sy Sz. destruct size as [sx sy sz], o as [ox oy oz], d as [dx dy dz]. unfold crosses, at_ray, in_box, side. vsimp. cbn [vx vy vz] in *.
  split; intros [B H]; (split; [exact B|]); destruct B as (Bx & By & Bz).
  - destruct (axis_cases sx ox dx t Sx Bx) as [(ex & Ex & Kx)|K]; [|left; exact K].
    destruct (axis_cases sy oy dy t Sy By) as [(ey & Ey & Ky)|K]; [|right; left; exact K].
    destruct (axis_cases sz oz dz t Sz Bz) as [(ez & Ez & Kz)|K]; [|right; right; exact K].
    exfalso. destruct (H (Rmin ex (Rmin ey ez))) as (r & R & N); [repeat apply Rmin_glb_lt; assumption|]. apply N.
    pose proof (Rmin_l ex (Rmin ey ez)). pose proof (Rmin_r ex (Rmin ey ez)). pose proof (Rmin_l ey ez). pose proof (Rmin_r ey ez).
    split; [apply Kx; lra|]. split; [apply Ky; lra|apply Kz; lra].
  - intros e E. destruct H as [[D K]|[[D K]|[D K]]].
    + destruct (axis_leaves sx ox dx t e Sx D K E) as (r & R & N). exists r. split; [exact R|tauto].
    + destruct (axis_leaves sy oy dy t e Sy D K E) as (r & R & N). exists r. split; [exact R|tauto].
    + destruct (axis_leaves sz oz dz t e Sz D K E) as (r & R & N). exists r. split; [exact R|tauto].
Qed.

(** The hits on the faces of a box, ahead of the origin of the ray, are the places where the
    ray passes into or out of the box, each once. *)
Theorem C142_crossings : forall L size o d, 0 < vx size -> 0 < vy size -> 0 < vz size -> is_unit d -> casts L (box_mesh size) o d ->
  exists ts, mesh_intersections L (box_mesh size) o d = map (fun t => vadd o (vscale t d)) ts /\ NoDup ts /\
    (forall t, In t ts <-> 0 <= t /\ crosses size o d t) /\ StronglySorted Rle ts.
Proof.
  intros L size o d Sx Sy Sz U C. rewrite C142_box_stays in *.
  destruct (locations_spec (creation_box size) o d (box_solid size Sx Sy Sz)) as (ts & E & N & T).
  destruct (sorted_intersections L (creation_box size) o d) as (P & Q).
  assert (P' : Permutation (map (at_ray o d) ts) (mesh_intersections L (creation_box size) o d)) by (rewrite <- E; etransitivity; [exact C|exact P]).
  destruct (Permutation_map_inv _ _ (Permutation_sym P')) as (rs & Er & Pr).
  assert (K : forall t, In t rs <-> 0 <= t /\ crosses size o d t).
  { intros t. rewrite (crosses_side size o d t Sx Sy Sz). transitivity (In t ts); [split; apply Permutation_in; [now apply Permutation_sym|exact Pr]|].
    rewrite T. split; intros [A B]; (split; [exact A|]).
    - apply faces_in; assumption.
    - apply faces_cover; tauto. }
  exists rs. split; [exact Er|]. split; [now apply (Permutation_NoDup Pr)|]. split; [exact K|].
  rewrite Er in Q. assert (Nn : forall t, In t rs -> 0 <= t) by (intros t I; now apply K). clear - Q Nn U.
  induction rs as [|t rs IH]; [constructor|]. simpl in Q. inversion Q as [|x l Q' F]; subst. constructor; [apply IH; auto using in_cons|].
  rewrite Forall_forall in *. intros s I. specialize (F (at_ray o d s) (in_map _ _ _ I)).
  assert (Di : forall r, 0 <= r -> distance_between o (at_ray o d r) = r).
  { intros r R. rewrite distance_sym. unfold distance_between, at_ray.
    replace (vsub (vadd o (vscale r d)) o) with (vscale r d) by (apply vec_eq; vsimp; ring). rewrite norm_scale_pos, norm_unit by assumption. ring. }
  rewrite !Di in F; [exact F|apply Nn; now right|apply Nn; now left].
Qed.
Print Assumptions C142_crossings.

(** So a scene of boxes, spheres and cylinders has the same histories in both engines when
    the rays are cast at the faces (C138 without its assumption about boxes). *)
Definition face_caster (L : mesh -> vec -> vec -> list vec) : Prop := forall m o d, casts L m o d.
Lemma box_mesh_exact L : face_caster L -> exact_mesh (fun size => mesh_intersections L (box_mesh size)).
Proof.
  intros C size o d Sx Sy Sz U _. destruct (C142_crossings L size o d Sx Sy Sz U (C _ _ _)) as (ts & E & N & K & _).
  exists ts. split; [exact E|]. split; [apply Forall_forall; intros t I; now apply K|]. split; [exact N|].
  intros t P. rewrite K. pose proof EPS_pos. split; [tauto|]. intros X. split; [lra|exact X].
Qed.
Theorem C142_same_history : forall L root T root_id fuel ms m us r max_events evs st,
  face_caster L -> ready root -> compile_scene root = Some (T, root_id) ->
  let S := python_scene (fun size => mesh_intersections L (box_mesh size)) root in
  (forall i, wf_draws (us i) /\ 0 < u_comp (us i) /\ 0 < u_wl (us i)) -> is_unit (direction r) ->
  (forall i r', reaches S ms m us r i r' -> ordinary S root (us (Datatypes.S i)) r') ->
  step_forward fuel S ms None m us r = (evs, st) -> st <> Raised -> (List.length evs + 1 < max_events)%nat ->
  exists ts kst, trace_one fuel (read_scene T root_id) (Some max_events) ms m us r = (evs, ts, kst) /\ status_match st kst.
Proof. intros L root T root_id fuel ms m us r max_events evs st C. apply C138_same_history. now apply box_mesh_exact. Qed.
Print Assumptions C142_same_history.

(** A ray through the middle of two sides meets, on each, the edge that two faces share; both
    places are listed once. *)
Example C142_example : face_caster intersects_location /\
  exists ts, mesh_intersections intersects_location (box_mesh (V 2 2 2)) (V (- 3) 0 0) (V 1 0 0) = map (fun t => vadd (V (- 3) 0 0) (vscale t (V 1 0 0))) ts /\
    NoDup ts /\ In 2 ts /\ In 4 ts /\ ~ In 3 ts.
Proof.
  assert (F : face_caster intersects_location) by (intros m o d; apply Permutation_refl). split; [exact F|].
  destruct (C142_crossings intersects_location (V 2 2 2) (V (- 3) 0 0) (V 1 0 0)) as (ts & E & N & K & _); simpl; try lra; [unfold is_unit; vsimp; lra|apply F|].
  exists ts. split; [exact E|]. split; [exact N|]. rewrite !K, !crosses_side by (simpl; lra). unfold in_box, side, at_ray. vsimp. repeat split; try lra.
Qed.
