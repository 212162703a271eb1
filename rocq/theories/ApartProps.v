(** C157-C159: matrices taken apart by the functions of transformations.py.
    For every list that numpy.linalg.eig may return ([eig3_spec], [eig4_spec], in any order).  [anchored]: the column chosen for
    the point does not lie at infinity, so that the division by its fourth coordinate is possible. *)
From Coq Require Import Reals List Bool Lra Psatz Nsatz.
From Verif Require Import Base Vec OpticsModel TransformModel TransformProofs TransformProps MatrixModel MatrixProofs ApartModel ApartProofs.
Import ListNotations.
Open Scope R_scope.

Ltac e8n := unfold e8 in *.

(** ** C157: rotations *)
(** the column chosen is the axis *)
Lemma axis_chosen s c u l : is_unit u -> s * s + c * c = 1 -> c <= 1 - e8 \/ c = 1 -> eig3_spec (mtrans (rodrigues s c u)) l ->
  exists e, final (near3 1 e8 l) = Some e /\ is_unit (vre e) /\ mvec (mtrans (rodrigues s c u)) (vre e) = vre e.
Proof.
  intros U S C L. destruct (near3_final _ l 1 e8 L e8_pos (rotation_det s c u U S)) as (e & F & I & N). exists e. split; [exact F|].
  assert (P : pair3_ok (mtrans (rodrigues s c u)) e) by now apply L.
  assert (W : wre e = 1 /\ wim e = 0).
  { destruct (rotation_pair s c u e U P) as [W|W]; [exact W|]. destruct C as [C|C].
    - exfalso. rewrite W in N. rewrite Rabs_left1 in N; pose proof e8_pos; lra.
    - split; [lra|]. assert (S0 : s = 0) by (apply Rsqr_0_uniq; unfold Rsqr; subst c; lra). destruct P as (A & B & N' & _). rewrite rodrigues_vec in A, B. subst c s. rewrite W in A, B.
      destruct (vre e) as [a1 a2 a3], (vim e) as [b1 b2 b3]. unfold vadd, vsub, vscale, cross, dot in *. cbn [vx vy vz] in *.
      injection A as A1 A2 A3. injection B as B1 B2 B3. set (w := wim e) in *. 
      assert (w * (a1 * a1 + a2 * a2 + a3 * a3 + (b1 * b1 + b2 * b2 + b3 * b3)) = 0) by nsatz. rewrite N' in H. lra. }
  destruct W as [W0 W1]. destruct P as (A & _ & N' & Z). specialize (Z W1). rewrite Z in N'. split.
  - unfold is_unit, dot, vzero in *. cbn [vx vy vz] in N'. lra.
  - rewrite A, W0, W1. apply vec_eq; cbn; ring.
Qed.

(** rotation_matrix rebuilds the matrix from what rotation_from_matrix returns, unless the angle is below about 1.4e-4 without being 0. *)
Theorem C157_rotation_partial : forall eig3 eig4 angle axis point m, rotation_matrix angle axis point = Some m ->
  cos angle <= 1 - / 10 ^ 8 \/ cos angle = 1 ->
  eig3_spec (mtrans (rot m)) (eig3 (mtrans (rot m))) -> eig4_spec (hom_of m) (eig4 (hom_of m)) -> anchored (eig4 (hom_of m)) ->
  exists angle' axis' point', rotation_parts eig3 eig4 m = Some (angle', axis', point') /\
    rotation_matrix angle' axis' point' = Some m.
Proof.
  intros eig3 eig4 angle axis point m H C L3 L4 A. unfold rotation_matrix in H. destruct (unit_vector axis) as [u|] eqn:Eu; [|discriminate].
  destruct (unit_vector_unit _ _ Eu) as [U _]. pose proof (sc_one angle) as S. set (s := sin angle) in *. set (c := cos angle) in *.
  injection H as H. assert (Em : rot m = rodrigues s c u) by (rewrite <- H; reflexivity).
  destruct (fixed_point_ok eig4 m L4 A) as (p & Fp & Kp). rewrite Em in L3.
  destruct (axis_chosen s c u _ U S C L3) as (e & Fe & Ue & Ke). unfold rotation_parts. rewrite Em, Fe, Fp.
  assert (T : tra m = vsub p (mvec (rodrigues s c u) p)).
  { unfold to_point in Kp. rewrite Em in Kp. destruct (mvec (rodrigues s c u) p) as [a1 a2 a3], p as [p1 p2 p3], (tra m) as [t1 t2 t3].
    unfold vadd, vsub in *. cbn [vx vy vz] in *. injection Kp as K1 K2 K3. apply vec_eq; cbn [vx vy vz]; lra. }
  assert (G : exists s', s' * s' + c * c = 1 /\ rotation_from_matrix (rodrigues s c u) (vre e) = (atan2 s' c, vre e) /\ rodrigues s' c (vre e) = rodrigues s c u).
  { destruct (Req_dec c 1) as [C1|C1].
    - exists 0. assert (S0 : s = 0) by (apply Rsqr_0_uniq; unfold Rsqr; rewrite C1 in S; lra). assert (Q : 0 * 0 + c * c = 1) by (rewrite C1; ring). split; [exact Q|].
      assert (I : forall x, rodrigues 0 c x = rodrigues 0 c (vre e)).
      { intros x. rewrite C1. destruct x as [x1 x2 x3], (vre e) as [y1 y2 y3]. unfold rodrigues; cbn [vx vy vz]. apply mat_eq; cbn [r1 r2 r3]; apply vec_eq; cbn [vx vy vz]; ring. }
      rewrite S0, (I u). split; [|reflexivity]. apply rotation_angle; [exact Ue|exact Q].
    - destruct (rotation_axis s c u (vre e) U Ue C1 Ke) as [E|E]; rewrite E.
      + exists s. repeat split; [exact S|]. now apply rotation_angle.
      + exists (- s). rewrite rodrigues_flip. split; [lra|]. split; [|reflexivity]. rewrite <- (rodrigues_flip s c u).
        apply rotation_angle; [rewrite <- E; exact Ue|lra]. }
  destruct G as (s' & S' & -> & R). exists (atan2 s' c), (vre e), p. split; [reflexivity|].
  unfold rotation_matrix. rewrite (unit_vector_of_unit _ Ue). destruct (atan2_sin_cos _ _ S') as [-> ->]. rewrite R, <- T, <- Em. now destruct m.
Qed.
Print Assumptions C157_rotation_partial.

(** The condition under which look_at is proved to be right (C49, C99: the column chosen is the axis)
    holds whatever the order of the list, for a direction that is not within about 1.4e-4 of +z. *)
Lemma look_rodrigues b : is_unit b -> vz b <> -1 -> vz b <> 1 -> exists s u, is_unit u /\ s * s + vz b * vz b = 1 /\ look_matrix b = rodrigues s (vz b) u.
Proof.
  intros U N1 N2. destruct b as [x y z]. unfold is_unit, dot in U; cbn [vx vy vz] in *.
  set (s := sqrt (x * x + y * y)). assert (P : 0 < x * x + y * y) by nra.
  assert (S : s * s = x * x + y * y) by (apply sqrt_sqrt; lra). assert (S0 : s <> 0) by (intros E; rewrite E in S; lra).
  assert (X : eig_spec (look_matrix (V x y z)) (V (- y / s) (x / s) 0)).
  { destruct (look_k x y z U N1) as (k & Ek & K1 & K2). split.
    - unfold is_unit, dot; cbn [vx vy vz]. transitivity ((x * x + y * y) / (s * s)); [field; exact S0|]. rewrite S. field. lra.
    - rewrite (look_matrix_closed x y z k Ek). unfold mtrans, mvec, dot; cbn [vx vy vz r1 r2 r3]. apply vec_eq; cbn [vx vy vz]; field; exact S0. }
  destruct (look_sina (V x y z) _ U N1 X) as (s' & E1 & _ & E2). exists s', (V (- y / s) (x / s) 0). split; [apply X|]. split; [exact E1|]. symmetry. exact E2.
Qed.
Theorem C157_look_column_partial : forall eig3 v, is_unit v -> vz v <> -1 -> vz v <= 1 - / 10 ^ 8 \/ vz v = 1 ->
  eig3_spec (mtrans (look_matrix v)) (eig3 (mtrans (look_matrix v))) ->
  exists w, look_column eig3 v = Some w /\ eig_spec (look_matrix v) w.
Proof.
  intros eig3 v U N C L. assert (G : exists s u, is_unit u /\ s * s + vz v * vz v = 1 /\ look_matrix v = rodrigues s (vz v) u).
  { destruct (Req_dec (vz v) 1) as [E|E]; [|now apply look_rodrigues]. exists 0, (V 0 0 1). rewrite E.
    split; [unfold is_unit, dot; cbn; ring|]. split; [lra|].
    assert (Hv : v = V 0 0 1). { destruct v as [x y z]. unfold is_unit, dot in U; cbn [vx vy vz] in *. subst z. apply vec_eq; cbn [vx vy vz]; nra. }
    rewrite Hv, (look_matrix_closed 0 0 1 _ eq_refl). unfold rodrigues; cbn [vx vy vz]. apply mat_eq; cbn [r1 r2 r3]; apply vec_eq; cbn [vx vy vz]; field. }
  destruct G as (s & u & Uu & S & E). rewrite E in L. destruct (axis_chosen s (vz v) u _ Uu S C L) as (e & F & Ue & K).
  exists (vre e). unfold look_column, eig_spec. rewrite E, F. auto.
Qed.
Print Assumptions C157_look_column_partial.

(** Hence look_at turns the face of an unturned node along the vector. *)
Theorem C157_look_at_partial : forall eig3 t v, is_unit v -> to_vector (pose t) (V 0 0 1) = V 0 0 1 ->
  np_close (vz v) (-1) = false -> vz v <= 1 - / 10 ^ 8 \/ vz v = 1 ->
  eig3_spec (mtrans (look_matrix v)) (eig3 (mtrans (look_matrix v))) ->
  exists t', look_at_with eig3 t v = Some t' /\ to_vector (pose t') (V 0 0 1) = v /\ loc t' = loc t.
Proof.
  intros eig3 t v U F N C L. assert (N1 : vz v <> -1).
  { intros E. rewrite E in N. unfold np_close in N. apply Rleb_false in N.
    replace (-1 - -1) with 0 in N by ring. rewrite Rabs_R0, (Rabs_left (-1)) in N by lra. lra. }
  destruct (C157_look_column_partial eig3 v U N1 C L) as (w & Ew & Sw).
  destruct (C49_look_at_defined_partial t v w U Sw) as (t' & E). exists t'. unfold look_at_with.
  replace (dot zaxis v) with (vz v) by (unfold zaxis, dot; cbn; ring). rewrite N, Ew. split; [exact E|].
  exact (C49_look_at_partial t v w t' U Sw F (or_introl N) E).
Qed.
Print Assumptions C157_look_at_partial.
(** Almost straight down (within the tolerance of np.isclose) no eigenvector is needed: the node is turned to look
    straight down. *)
Theorem C157_look_down_partial : forall eig3 t v, to_vector (pose t) (V 0 0 1) = V 0 0 1 -> np_close (vz v) (-1) = true ->
  exists t', look_at_with eig3 t v = Some t' /\ to_vector (pose t') (V 0 0 1) = V 0 0 (-1) /\ loc t' = loc t.
Proof.
  intros eig3 t v F N. unfold look_at_with. replace (dot zaxis v) with (vz v) by (unfold zaxis, dot; cbn; ring). rewrite N.
  assert (Uy : unit_vector (V 0 1 0) = Some (V 0 1 0)) by (apply unit_vector_of_unit; unfold is_unit, dot; simpl; ring).
  assert (exists t', rotate t PI (V 0 1 0) = Some t') as (t' & E) by (unfold rotate, rotation_matrix; rewrite Uy; eauto).
  exists t'. split; [exact E|]. split; [|now apply (C47_rotate_keeps_location t PI (V 0 1 0))].
  destruct (rotate_inv _ _ _ _ E) as (m & Em & ->). unfold rotation_matrix in Em. rewrite Uy in Em. injection Em as <-.
  unfold to_vector in *. simpl. rewrite mvec_mmul, F, sin_PI, cos_PI. unfold rodrigues; cbn [vx vy vz]. rewrite mvec_eval.
  apply vec_eq; cbn [vx vy vz]; ring.
Qed.
Print Assumptions C157_look_down_partial.
Example C157_down_example : np_close (vz (V 0 (6 / 1000000) (-1))) (-1) = true /\ to_vector (pose (tf_init None)) (V 0 0 1) = V 0 0 1.
Proof.
  split; [|unfold to_vector; simpl; unfold mvec, dot; simpl; apply vec_eq; simpl; ring]. unfold np_close. apply Rleb_true. cbn [vz]. replace (-1 - -1) with 0 by ring.
  rewrite Rabs_R0, Rabs_left by lra. lra.
Qed.

(** Nearer to +z the real parts of all three eigenvalues are within 1e-8 of 1, and the last of the three columns may be
    one of the complex ones.  Then the node is not turned at all: the vector is (0, s, c) with s about 1e-4. *)
Definition tiny : R := / 20000.
Definition tiny_s : R := 2 * tiny / (1 + tiny * tiny).
Definition tiny_c : R := (1 - tiny * tiny) / (1 + tiny * tiny).
Definition tiny_pairs : list pair3 :=
  let r := / sqrt 2 in
  [P3 1 0 (V 1 0 0) vzero; P3 tiny_c tiny_s (V 0 r 0) (V 0 0 (- r)); P3 tiny_c (- tiny_s) (V 0 r 0) (V 0 0 r)].
Lemma tiny_one : tiny_s * tiny_s + tiny_c * tiny_c = 1.
Proof. unfold tiny_s, tiny_c, tiny. field. Qed.
Lemma half_root : / sqrt 2 * / sqrt 2 = / 2.
Proof. rewrite <- Rinv_mult. rewrite sqrt_sqrt by lra. reflexivity. Qed.
Lemma tiny_look : mtrans (look_matrix (V 0 tiny_s tiny_c)) = M (V 1 0 0) (V 0 tiny_c (- tiny_s)) (V 0 tiny_s tiny_c).
Proof.
  pose proof tiny_one as S. assert (U : 0 * 0 + tiny_s * tiny_s + tiny_c * tiny_c = 1) by lra.
  assert (N : tiny_c <> -1) by (unfold tiny_c, tiny; lra).
  destruct (look_k 0 tiny_s tiny_c U N) as (k & Ek & K1 & K2). rewrite (look_matrix_closed 0 tiny_s tiny_c k Ek). unfold mtrans; cbn [vx vy vz r1 r2 r3].
  assert (K3 : k * (tiny_s * tiny_s) = 1 - tiny_c) by lra.
  apply mat_eq; cbn [r1 r2 r3]; apply vec_eq; cbn [vx vy vz]; try rewrite K3; try ring. lra.
Qed.
Lemma tiny_pairs_ok : eig3_spec (mtrans (look_matrix (V 0 tiny_s tiny_c))) tiny_pairs.
Proof.
  rewrite tiny_look. pose proof half_root as Hr. pose proof tiny_one as S. unfold tiny_pairs. set (r := / sqrt 2) in *. clearbody r.
  assert (S0 : tiny_s <> 0) by (unfold tiny_s, tiny; lra). set (s := tiny_s) in *. set (c := tiny_c) in *. clearbody s c.
  split; [reflexivity|]. split.
  - intros e [<-|[<-|[<-|[]]]]; (split; [|split; [|split]]); cbn [wre wim vre vim]; unfold mvec, vadd, vsub, vscale, vzero, dot; cbn [vx vy vz r1 r2 r3];
      first [solve [apply vec_eq; cbn [vx vy vz]; ring] | lra | intros E; first [reflexivity | lra | exfalso; lra]].
  - intros x. unfold mdet, msub, mscale, Vec.mid, cross, vsub, vscale, dot; cbn [vx vy vz r1 r2 r3 map prod wre wim]. ring.
Qed.
Theorem C157_look_at_refuted : exists eig3 v t', is_unit v /\ np_close (vz v) (-1) = false /\
  eig3_spec (mtrans (look_matrix v)) (eig3 (mtrans (look_matrix v))) /\
  look_at_with eig3 (tf_init None) v = Some t' /\ to_vector (pose t') (V 0 0 1) = V 0 0 1 /\ v <> V 0 0 1.
Proof.
  set (v := V 0 tiny_s tiny_c). pose proof tiny_one as S.
  assert (C : 1 - tiny_c < e8) by (unfold tiny_c, tiny, e8; lra).
  assert (Cp : 0 < tiny_c) by (unfold tiny_c, tiny; lra).
  assert (N : np_close (vz v) (-1) = false).
  { unfold np_close, v; cbn [vx vy vz]. apply Rleb_false. rewrite (Rabs_right (tiny_c - -1)), (Rabs_left (-1)) by lra. lra. }
  assert (C1 : tiny_c <= 1) by nra.
  exists (fun _ => tiny_pairs), v. 
  assert (K : look_column (fun _ => tiny_pairs) v = Some (V 0 (/ sqrt 2) 0)).
  { unfold look_column, near3, tiny_pairs. cbn [filter wre].
    replace (Rltb (Rabs (1 - 1)) e8) with true by (symmetry; apply Rltb_true; replace (1 - 1) with 0 by ring; rewrite Rabs_R0; apply e8_pos).
    replace (Rltb (Rabs (tiny_c - 1)) e8) with true by (symmetry; apply Rltb_true; rewrite Rabs_left1; lra). reflexivity. }
  assert (Rp : / 10 ^ 8 < / sqrt 2).
  { apply Rinv_lt_contravar; [apply Rmult_lt_0_compat; [apply sqrt_lt_R0; lra|lra]|]. assert (sqrt 2 < 2); [|lra].
    rewrite <- (sqrt_square 2) at 2 by lra. apply sqrt_lt_1; lra. }
  assert (Rn : 0 < / sqrt 2) by (apply Rinv_0_lt_compat, sqrt_lt_R0; lra).
  assert (F : rotation_from_matrix (look_matrix v) (V 0 (/ sqrt 2) 0) = (0, V 0 (/ sqrt 2) 0)).
  { assert (E : look_matrix v = M (V 1 0 0) (V 0 tiny_c tiny_s) (V 0 (- tiny_s) tiny_c)).
    { rewrite <- (mtrans_invol (look_matrix v)). unfold v. rewrite tiny_look. reflexivity. }
    rewrite E. unfold rotation_from_matrix, mtrace. cbn [vx vy vz r1 r2 r3].
    replace (Rltb (/ 10 ^ 8) (Rabs 0)) with false by (symmetry; apply Rltb_false; rewrite Rabs_R0; lra).
    replace (Rltb (/ 10 ^ 8) (Rabs (/ sqrt 2))) with true by (symmetry; apply Rltb_true; rewrite Rabs_right; lra).
    f_equal. replace ((0 + ((1 + tiny_c + tiny_c - 1) / 2 - 1) * 0 * 0) / / sqrt 2) with 0 by (unfold Rdiv; ring).
    replace ((1 + tiny_c + tiny_c - 1) / 2) with tiny_c by field. unfold atan2. 
    replace (0 * 0 + tiny_c * tiny_c) with (tiny_c * tiny_c) by ring. rewrite sqrt_square by lra.
    replace (tiny_c / tiny_c) with 1 by (field; lra). rewrite acos_1. destruct (Rleb 0 0); ring. }
  assert (Uy : unit_vector (V 0 (/ sqrt 2) 0) = Some (V 0 1 0)).
  { unfold unit_vector. assert (Nn : norm (V 0 (/ sqrt 2) 0) = / sqrt 2).
    { unfold norm, dot; cbn [vx vy vz]. replace (0 * 0 + / sqrt 2 * / sqrt 2 + 0 * 0) with (/ sqrt 2 * / sqrt 2) by ring. apply sqrt_square. lra. }
    rewrite Nn. destruct (Reqb_spec (/ sqrt 2) 0); [lra|]. f_equal. unfold vscale; cbn [vx vy vz]. apply vec_eq; cbn [vx vy vz]; try ring. field. apply Rgt_not_eq, sqrt_lt_R0. lra. }
  eexists. split; [unfold is_unit, dot, v; cbn [vx vy vz]; lra|]. split; [exact N|]. split; [apply tiny_pairs_ok|]. split; [|split].
  - unfold look_at_with. replace (dot zaxis v) with (vz v) by (unfold zaxis, dot; cbn; ring). rewrite N, K. unfold look_at.
    replace (dot zaxis v) with (vz v) by (unfold zaxis, dot; cbn; ring). rewrite N, F. unfold rotate, rotation_matrix. rewrite Uy. reflexivity.
  - unfold to_vector. cbn [pose rot rcomp tf_init translation_matrix]. rewrite mmul_id_r, sin_0, cos_0. unfold rodrigues, mvec, dot; cbn [vx vy vz r1 r2 r3]. apply vec_eq; cbn [vx vy vz]; ring.
  - unfold v. intros E. injection E as E _. unfold tiny_s, tiny in E. lra.
Qed.
Print Assumptions C157_look_at_refuted.

(** The same for rotation_from_matrix itself: a turn by 1e-4 about -x is taken for no turn at all. *)
Definition turn4 (s c : R) (last : pair4) : list pair4 :=
  let r := / sqrt 2 in
  [P4 1 0 (V 1 0 0) 0 vzero 0; P4 c s (V 0 r 0) 0 (V 0 0 r) 0; P4 c (- s) (V 0 r 0) 0 (V 0 0 (- r)) 0; last].
Definition origin4 : pair4 := P4 1 0 vzero 1 vzero 0.
Ltac eigen := first [solve [apply vec_eq; cbn [vx vy vz]; ring] | solve [split; reflexivity] | lra | (let E := fresh "E" in intros E; first [reflexivity | split; reflexivity | lra | exfalso; lra])].
Ltac unv := unfold mvec, vadd, vsub, vscale, vneg, vzero, dot; cbn [vx vy vz r1 r2 r3].
Ltac det3 := let x := fresh "x" in intros x; unfold mdet, msub, mscale, madd, outer, Vec.mid, cross, vadd, vsub, vneg, vscale, dot; cbn [vx vy vz r1 r2 r3 map prod wre wim].
Lemma affine_det g x : hdet (hsub (hscale x hid) (hom_of g)) = (x - 1) * mdet (msub (mscale x Vec.mid) (rot g)).
Proof.
  unfold hdet, hsub, hscale, hid, hom_of. cbn [lin col row cor]. replace (vsub (vscale x vzero) vzero) with vzero by (apply vec_eq; cbn; ring).
  generalize (mdet (msub (mscale x Vec.mid) (rot g))). intros d. rewrite dot_comm. unfold dot at 1. cbn [vzero vx vy vz]. ring.
Qed.
Ltac det4 := let x := fresh "x" in intros x; rewrite affine_det; cbn [rot]; unfold mdet, msub, mscale, madd, outer, Vec.mid, cross, vadd, vsub, vneg, vscale, dot;
  cbn [vx vy vz r1 r2 r3 map prod ure uim].
Lemma turn4_ok s c : s <> 0 -> eig4_spec (hom_of (Rigid (M (V 1 0 0) (V 0 c s) (V 0 (- s) c)) vzero)) (turn4 s c origin4).
Proof.
  intros S0. pose proof half_root as Hr. unfold turn4, origin4. set (r := / sqrt 2) in *. clearbody r. split; [reflexivity|]. split.
  - intros e [<-|[<-|[<-|[<-|[]]]]]; (split; [|split; [|split; [|split; [|split]]]]); cbn [ure uim are aim hre him hom_of lin col row cor rot tra]; unv; eigen.
  - det4. ring.
Qed.
Lemma mvec_eval0 m : mvec m vzero = vzero.
Proof. unfold mvec, dot, vzero. cbn [vx vy vz]. apply vec_eq; cbn [vx vy vz]; ring. Qed.
Theorem C157_rotation_refuted : exists eig3 eig4 angle axis point m angle' axis' point', rotation_matrix angle axis point = Some m /\
  eig3_spec (mtrans (rot m)) (eig3 (mtrans (rot m))) /\ eig4_spec (hom_of m) (eig4 (hom_of m)) /\ anchored (eig4 (hom_of m)) /\
  rotation_parts eig3 eig4 m = Some (angle', axis', point') /\ rotation_matrix angle' axis' point' <> Some m.
Proof.
  destruct (atan2_sin_cos _ _ tiny_one) as [Es Ec]. set (a := atan2 tiny_s tiny_c) in *.
  set (m := Rigid (M (V 1 0 0) (V 0 tiny_c tiny_s) (V 0 (- tiny_s) tiny_c)) vzero).
  assert (S0 : tiny_s <> 0) by (unfold tiny_s, tiny; lra). pose proof tiny_one as S.
  assert (C : 1 - tiny_c < e8) by (unfold tiny_c, tiny, e8; lra).
  assert (Cp : 0 < tiny_c) by (unfold tiny_c, tiny; lra). assert (C1 : tiny_c <= 1) by nra.
  assert (Rn : 0 < / sqrt 2) by (apply Rinv_0_lt_compat, sqrt_lt_R0; lra).
  assert (Rp : / 10 ^ 8 < / sqrt 2).
  { apply Rinv_lt_contravar; [apply Rmult_lt_0_compat; [apply sqrt_lt_R0; lra|lra]|]. assert (sqrt 2 < 2); [|lra].
    rewrite <- (sqrt_square 2) at 2 by lra. apply sqrt_lt_1; lra. }
  assert (N1 : Rltb (Rabs (1 - 1)) e8 = true) by (apply Rltb_true; replace (1 - 1) with 0 by ring; rewrite Rabs_R0; apply e8_pos).
  assert (N2 : Rltb (Rabs (tiny_c - 1)) e8 = true) by (apply Rltb_true; rewrite Rabs_left1; lra).
  assert (Em : mtrans (rot m) = mtrans (look_matrix (V 0 tiny_s tiny_c))) by (rewrite tiny_look; reflexivity).
  assert (F4 : final (near4 1 e8 (turn4 tiny_s tiny_c origin4)) = Some origin4).
  { unfold near4, turn4, origin4. cbn [filter ure]. rewrite N1, N2. reflexivity. }
  exists (fun _ => tiny_pairs), (fun _ => turn4 tiny_s tiny_c origin4), a, (V (-1) 0 0), vzero, m, 0, (V 0 (/ sqrt 2) 0), vzero.
  assert (U : is_unit (V (-1) 0 0)) by (unfold is_unit, dot; cbn; ring).
  split.
  { unfold rotation_matrix. rewrite (unit_vector_of_unit _ U), Es, Ec. unfold m. f_equal. f_equal.
    - unfold rodrigues; cbn [vx vy vz]. apply mat_eq; cbn [r1 r2 r3]; apply vec_eq; cbn [vx vy vz]; ring.
    - rewrite mvec_eval0. apply vec_eq; cbn [vsub vzero vx vy vz]; ring. }
  split; [rewrite Em; apply tiny_pairs_ok|]. split; [now apply turn4_ok|].
  split; [intros e; rewrite F4; intros E; injection E as <-; cbn; lra|]. split.
  - unfold rotation_parts, fixed_point. rewrite F4. replace (final (near3 1 e8 tiny_pairs)) with (Some (P3 tiny_c (- tiny_s) (V 0 (/ sqrt 2) 0) (V 0 0 (/ sqrt 2)))).
    2:{ unfold near3, tiny_pairs. cbn [filter wre]. rewrite N1, N2. reflexivity. }
    unfold dehom. cbn [origin4 hre are vre]. destruct (Reqb_spec 1 0); [lra|]. unfold m at 1. unfold rotation_from_matrix, mtrace. cbn [vx vy vz r1 r2 r3 rot].
    replace (Rltb (/ 10 ^ 8) (Rabs 0)) with false by (symmetry; apply Rltb_false; rewrite Rabs_R0; lra).
    replace (Rltb (/ 10 ^ 8) (Rabs (/ sqrt 2))) with true by (symmetry; apply Rltb_true; rewrite Rabs_right; lra).
    replace ((0 + ((1 + tiny_c + tiny_c - 1) / 2 - 1) * 0 * 0) / / sqrt 2) with 0 by (unfold Rdiv; ring).
    replace ((1 + tiny_c + tiny_c - 1) / 2) with tiny_c by field. unfold atan2.
    replace (0 * 0 + tiny_c * tiny_c) with (tiny_c * tiny_c) by ring. rewrite sqrt_square by lra.
    replace (tiny_c / tiny_c) with 1 by (field; lra). rewrite acos_1. replace (if Rleb 0 0 then 0 else - 0) with 0 by (destruct (Rleb 0 0); ring).
    replace (vscale (/ 1) vzero) with vzero by (apply vec_eq; cbn [vscale vzero vx vy vz]; ring). reflexivity.
  - unfold rotation_matrix. destruct (unit_vector (V 0 (/ sqrt 2) 0)) as [u|] eqn:Eu; [|discriminate].
    intros E. apply (f_equal (fun o => match o with Some g => vz (r2 (rot g)) | None => 0 end)) in E. cbn [rot m r2 vz rodrigues] in E.
    rewrite sin_0, cos_0 in E. apply S0. rewrite <- E. ring.
Qed.
Print Assumptions C157_rotation_refuted.

(** A turn about -x with cosine 4/5: whichever order the columns have here, the axis is chosen. *)
Example C157_example :
  let m := Rigid (M (V 1 0 0) (V 0 (4 / 5) (3 / 5)) (V 0 (- (3 / 5)) (4 / 5))) vzero in
  let l3 := [P3 1 0 (V 1 0 0) vzero; P3 (4 / 5) (3 / 5) (V 0 (/ sqrt 2) 0) (V 0 0 (- / sqrt 2)); P3 (4 / 5) (- (3 / 5)) (V 0 (/ sqrt 2) 0) (V 0 0 (/ sqrt 2))] in
  eig3_spec (mtrans (rot m)) l3 /\ eig4_spec (hom_of m) (turn4 (3 / 5) (4 / 5) origin4) /\ anchored (turn4 (3 / 5) (4 / 5) origin4) /\
  rotation_matrix (atan2 (3 / 5) (4 / 5)) (V (-2) 0 0) (V 7 0 0) = Some m /\
  exists angle point, rotation_parts (fun _ => l3) (fun _ => turn4 (3 / 5) (4 / 5) origin4) m = Some (angle, V 1 0 0, point) /\ sin angle = - (3 / 5).
Proof.
  cbn zeta. pose proof half_root as Hr.
  assert (N1 : Rltb (Rabs (1 - 1)) e8 = true) by (apply Rltb_true; replace (1 - 1) with 0 by ring; rewrite Rabs_R0; apply e8_pos).
  assert (N2 : Rltb (Rabs (4 / 5 - 1)) e8 = false) by (apply Rltb_false; unfold e8; rewrite Rabs_left1; lra).
  assert (F4 : final (near4 1 e8 (turn4 (3 / 5) (4 / 5) origin4)) = Some origin4).
  { unfold near4, turn4, origin4. cbn [filter ure]. rewrite N1, N2. reflexivity. }
  split; [|split; [|split; [|split]]].
  - set (r := / sqrt 2) in *. clearbody r. split; [reflexivity|]. split.
    + unfold mtrans; cbn [rot vx vy vz r1 r2 r3]. intros e [<-|[<-|[<-|[]]]]; (split; [|split; [|split]]); cbn [wre wim vre vim]; unv; eigen.
    + unfold mtrans; cbn [rot vx vy vz r1 r2 r3]. det3. ring.
  - apply turn4_ok. lra.
  - intros e. rewrite F4. intros E. injection E as <-. cbn. lra.
  - unfold rotation_matrix. assert (E1 : 3 / 5 * (3 / 5) + 4 / 5 * (4 / 5) = 1) by field.
    destruct (atan2_sin_cos _ _ E1) as [-> ->].
    replace (unit_vector (V (-2) 0 0)) with (Some (V (-1) 0 0)).
    2:{ unfold unit_vector, norm, dot; cbn [vx vy vz]. replace (-2 * -2 + 0 * 0 + 0 * 0) with (2 * 2) by ring. rewrite sqrt_square by lra.
        destruct (Reqb_spec 2 0); [lra|]. f_equal. unfold vscale; cbn [vx vy vz]. apply vec_eq; cbn [vx vy vz]; field. }
    f_equal. f_equal; [|rewrite <- (mtrans_invol (rodrigues _ _ _))]; unfold rodrigues, mtrans, mvec, vsub, vzero, dot; cbn [vx vy vz r1 r2 r3];
      [apply mat_eq; cbn [r1 r2 r3]; apply vec_eq; cbn [vx vy vz]; field|apply vec_eq; cbn [vx vy vz]; field].
  - unfold rotation_parts, fixed_point. rewrite F4. unfold near3. cbn [filter wre]. rewrite N1, N2. cbn [final rev first app vre].
    unfold dehom, origin4; cbn [hre are]. destruct (Reqb_spec 1 0); [lra|]. unfold rotation_from_matrix, mtrace. cbn [vx vy vz r1 r2 r3 rot].
    replace (Rltb (/ 10 ^ 8) (Rabs 0)) with false by (symmetry; apply Rltb_false; rewrite Rabs_R0; lra).
    eexists. eexists. split; [reflexivity|].
    replace ((- (3 / 5) + ((1 + 4 / 5 + 4 / 5 - 1) / 2 - 1) * 0 * 0) / 1) with (- (3 / 5)) by field.
    replace ((1 + 4 / 5 + 4 / 5 - 1) / 2) with (4 / 5) by field.
    assert (E1 : - (3 / 5) * - (3 / 5) + 4 / 5 * (4 / 5) = 1) by field. now destruct (atan2_sin_cos _ _ E1).
Qed.
