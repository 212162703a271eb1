(** Lemmas about eigenvectors of the matrices of transformations.py, for ApartProps.v. *)
From Coq Require Import Reals List Bool Lra Psatz Nsatz.
From Verif Require Import Base Vec OpticsModel TransformModel TransformProofs MatrixModel MatrixProofs ApartModel.
Import ListNotations.
Open Scope R_scope.

(** ** Lists *)
Lemma first_in {A} (l : list A) e : first l = Some e -> In e l.
Proof. destruct l; [discriminate|]. intros H. injection H as <-. now left. Qed.
Lemma final_in {A} (l : list A) e : final l = Some e -> In e l.
Proof. intros H. apply in_rev. now apply first_in. Qed.
Lemma first_some {A} (l : list A) e : In e l -> exists x, first l = Some x.
Proof. destruct l as [|a l]; [easy|]. intros _. now exists a. Qed.
Lemma final_some {A} (l : list A) e : In e l -> exists x, final l = Some x.
Proof. intros H. apply (first_some _ e). now apply in_rev in H. Qed.
Lemma near3_in c eps l e : In e (near3 c eps l) <-> In e l /\ Rabs (wre e - c) < eps.
Proof. unfold near3. rewrite filter_In, Rltb_true. tauto. Qed.
Lemma near4_in c eps l e : In e (near4 c eps l) <-> In e l /\ Rabs (ure e - c) < eps.
Proof. unfold near4. rewrite filter_In, Rltb_true. tauto. Qed.
Lemma prod_zero {A} (f : A -> R) l : prod (map f l) = 0 -> exists e, In e l /\ f e = 0.
Proof.
  induction l as [|a l IH]; cbn; intros H; [lra|]. apply Rmult_integral in H. destruct H as [H|H]; [exists a; auto|].
  destruct (IH H) as (e & I & F). eauto.
Qed.
Lemma e8_pos : 0 < e8.
Proof. unfold e8. apply Rinv_0_lt_compat. apply pow_lt. lra. Qed.
Lemma Rsq_zero x y : x ^ 2 + y ^ 2 = 0 -> x = 0 /\ y = 0.
Proof. intros H. split; nra. Qed.
Lemma spectrum3 m l x : eig3_spec m l -> mdet (msub (mscale x Vec.mid) m) = 0 -> exists e, In e l /\ wre e = x /\ wim e = 0.
Proof.
  intros (_ & _ & S) D. specialize (S x). rewrite D in S.
  destruct (prod_zero (fun e => (x - wre e) ^ 2 + wim e ^ 2) l) as (e & I & F); [rewrite <- S; ring|].
  apply Rsq_zero in F. exists e. repeat split; [exact I| |]; lra.
Qed.
Lemma spectrum4 m l x : eig4_spec m l -> hdet (hsub (hscale x hid) m) = 0 -> exists e, In e l /\ ure e = x /\ uim e = 0.
Proof.
  intros (_ & _ & S) D. specialize (S x). rewrite D in S.
  destruct (prod_zero (fun e => (x - ure e) ^ 2 + uim e ^ 2) l) as (e & I & F); [rewrite <- S; ring|].
  apply Rsq_zero in F. exists e. repeat split; [exact I| |]; lra.
Qed.
Lemma near3_first m l x eps : eig3_spec m l -> 0 < eps -> mdet (msub (mscale x Vec.mid) m) = 0 ->
  exists e, first (near3 x eps l) = Some e /\ In e l /\ Rabs (wre e - x) < eps.
Proof.
  intros S P D. destruct (spectrum3 m l x S D) as (e & I & E & _).
  destruct (first_some (near3 x eps l) e) as (e' & F).
  - apply near3_in. split; [exact I|]. rewrite E. replace (x - x) with 0 by ring. now rewrite Rabs_R0.
  - exists e'. split; [exact F|]. now apply near3_in, first_in.
Qed.
Lemma near3_final m l x eps : eig3_spec m l -> 0 < eps -> mdet (msub (mscale x Vec.mid) m) = 0 ->
  exists e, final (near3 x eps l) = Some e /\ In e l /\ Rabs (wre e - x) < eps.
Proof.
  intros S P D. destruct (spectrum3 m l x S D) as (e & I & E & _).
  destruct (final_some (near3 x eps l) e) as (e' & F).
  - apply near3_in. split; [exact I|]. rewrite E. replace (x - x) with 0 by ring. now rewrite Rabs_R0.
  - exists e'. split; [exact F|]. now apply near3_in, final_in.
Qed.

(** ** Vectors *)
Lemma vscale_zero k u : vscale k u = vzero -> k = 0 \/ dot u u = 0.
Proof.
  intros H. destruct (Req_dec k 0) as [|K]; [now left|right]. destruct u as [x y z]. vsimp. injection H as H1 H2 H3.
  apply Rmult_integral in H1, H2, H3. destruct H1; [lra|]. destruct H2; [lra|]. destruct H3; [lra|]. subst. ring.
Qed.
Lemma dot_zero u : dot u u = 0 -> u = vzero.
Proof. destruct u as [x y z]. unfold dot; cbn [vx vy vz]. intros H. apply vec_eq; cbn [vx vy vz vzero]; nra. Qed.
Lemma sign_of_unit u x c : is_unit u -> is_unit x -> x = vscale c u -> c = 1 \/ c = -1.
Proof.
  unfold is_unit. intros U X E. rewrite E, dot_scale_l, dot_scale_r, U in X.
  assert (H : (c - 1) * (c + 1) = 0) by lra. apply Rmult_integral in H. destruct H; [left|right]; lra.
Qed.

(** ** A fixed point of an affine map *)
Definition anchored (l : list pair4) : Prop := forall e, final (near4 1 e8 l) = Some e -> hre e <> 0.
Lemma affine_pair g e : pair4_ok (hom_of g) e -> hre e <> 0 ->
  ure e = 1 /\ uim e = 0 /\ to_point g (vscale (/ hre e) (are e)) = vscale (/ hre e) (are e).
Proof.
  intros (A & B & _ & D & _) N. cbn [hom_of lin col row cor] in *.
  rewrite <- (Rplus_0_l (1 * hre e)) in B. 
  assert (B' : hre e = ure e * hre e - uim e * him e) by (rewrite <- B; unfold dot, vzero; cbn [vx vy vz]; ring).
  assert (D' : him e = uim e * hre e + ure e * him e) by (rewrite <- D; unfold dot, vzero; cbn [vx vy vz]; ring).
  assert (S : 0 < hre e * hre e + him e * him e) by nra.
  assert (U : (ure e - 1) * (hre e * hre e + him e * him e) = 0).
  { transitivity (hre e * (ure e * hre e - uim e * him e - hre e) + him e * (uim e * hre e + ure e * him e - him e)); [ring|].
    rewrite <- B', <- D'. ring. }
  assert (U1 : ure e = 1) by (apply Rmult_integral in U; destruct U; lra).
  assert (I : uim e * hre e = 0) by (rewrite U1 in D'; lra).
  assert (I0 : uim e = 0) by (apply Rmult_integral in I; destruct I; [assumption|contradiction]).
  split; [exact U1|]. split; [exact I0|]. rewrite U1, I0 in A. clear - A N.
  unfold to_point. rewrite mvec_scale. destruct (mvec (rot g) (are e)) as [a b c], (are e) as [x y z], (tra g) as [p q r].
  unfold vadd, vsub, vscale in *. cbn [vx vy vz] in *. injection A as A1 A2 A3.
  apply vec_eq; cbn [vx vy vz].
  - replace a with (x - hre e * p) by lra. field. exact N.
  - replace b with (y - hre e * q) by lra. field. exact N.
  - replace c with (z - hre e * r) by lra. field. exact N.
Qed.
Lemma fixed_point_ok eig4 g : eig4_spec (hom_of g) (eig4 (hom_of g)) -> anchored (eig4 (hom_of g)) ->
  exists p, fixed_point eig4 (hom_of g) = Some p /\ to_point g p = p.
Proof.
  intros S A.
  assert (D : hdet (hsub (hscale 1 hid) (hom_of g)) = 0).
  { unfold hdet, hsub, hscale, hid, hom_of. cbn [lin col row cor].
    replace (vsub (vscale 1 vzero) vzero) with vzero by (apply vec_eq; cbn; ring). unfold dot, vzero; cbn [vx vy vz]. ring. }
  destruct (spectrum4 _ _ 1 S D) as (e & I & E & _).
  destruct (final_some (near4 1 e8 (eig4 (hom_of g))) e) as (e' & F).
  { apply near4_in. split; [exact I|]. rewrite E. replace (1 - 1) with 0 by ring. rewrite Rabs_R0. apply e8_pos. }
  unfold fixed_point. rewrite F. unfold dehom. pose proof (A e' F) as N.
  destruct (Reqb_spec (hre e') 0); [contradiction|]. eexists. split; [reflexivity|].
  apply affine_pair; [|exact N]. destruct S as (_ & S & _). apply S. apply final_in in F. now apply near4_in in F.
Qed.

(** ** Matrices 1 + k u v^T, and the affine map with these that keeps the points x with v.x = v.p *)
Definition dyad (k : R) (u v : vec) : mat := madd Vec.mid (mscale k (outer u v)).
Definition shift (k : R) (u v p : vec) : rigid := Rigid (dyad k u v) (vscale (- (k * dot v p)) u).
Lemma dyad_vec k u v x : mvec (dyad k u v) x = vadd x (vscale (k * dot v x) u).
Proof. destruct u as [ua ub uc], v as [va vb vc], x as [xa xb xc]. unfold dyad, outer, madd, mscale, mvec, Vec.mid, vadd, vscale, dot; cbn [vx vy vz r1 r2 r3]. apply vec_eq; cbn [vx vy vz]; ring. Qed.
Lemma dyad_trans k u v : mtrans (dyad k u v) = dyad k v u.
Proof. destruct u as [ua ub uc], v as [va vb vc]. unfold dyad, outer, madd, mscale, mtrans, Vec.mid, vadd, vscale; cbn [vx vy vz r1 r2 r3]. apply mat_eq; cbn [r1 r2 r3]; apply vec_eq; cbn [vx vy vz]; ring. Qed.
Lemma dyad_trace k u v : mtrace (dyad k u v) = 3 + k * dot v u.
Proof. destruct u as [ua ub uc], v as [va vb vc]. unfold dyad, outer, madd, mscale, mtrace, Vec.mid, vadd, vscale, dot; cbn [vx vy vz r1 r2 r3]. ring. Qed.
Lemma dyad_det k u v : mdet (msub (mscale (1 + k * dot v u) Vec.mid) (dyad k u v)) = 0.
Proof. destruct u as [ua ub uc], v as [va vb vc]. unfold mdet, msub, cross, dyad, outer, madd, mscale, Vec.mid, vadd, vsub, vscale, dot; cbn [vx vy vz r1 r2 r3]. ring. Qed.
Lemma shift_point k u v p q : to_point (shift k u v p) q = q -> shift k u v p = shift k u v q.
Proof.
  unfold to_point, shift; cbn [rot tra]. rewrite dyad_vec. intros H. f_equal. destruct u as [a b c], q as [x y z].
  revert H. generalize (dot v (V x y z)) (dot v p). intros s t. unfold vadd, vscale; cbn [vx vy vz]. intros H. injection H as H1 H2 H3. apply vec_eq; cbn [vx vy vz]; lra.
Qed.

Lemma dyad_pair k u v e : pair3_ok (dyad k u v) e ->
  wim e = 0 /\ is_unit (vre e) /\ vscale (k * dot v (vre e)) u = vscale (wre e - 1) (vre e).
Proof.
  intros (A & B & N & Z). rewrite dyad_vec in A, B.
  set (x := vre e) in *. set (y := vim e) in *. set (a := wre e - 1). set (b := wim e) in *.
  set (p := dot v x) in *. set (q := dot v y) in *.
  assert (A' : vscale (k * p) u = vsub (vscale a x) (vscale b y)).
  { destruct x as [xa xb xc], y as [ya yb yc], u as [ua ub uc]. unfold vadd, vsub, vscale in *. cbn [vx vy vz] in *. injection A as A1 A2 A3. unfold a. apply vec_eq; cbn [vx vy vz]; lra. }
  assert (B' : vscale (k * q) u = vadd (vscale b x) (vscale a y)).
  { destruct x as [xa xb xc], y as [ya yb yc], u as [ua ub uc]. unfold vadd, vsub, vscale in *. cbn [vx vy vz] in *. injection B as B1 B2 B3. unfold a. apply vec_eq; cbn [vx vy vz]; lra. }
  assert (Ap : k * p * dot v u = a * p - b * q).
  { apply (f_equal (dot v)) in A'. rewrite dot_sub_r, !dot_scale_r in A'. exact A'. }
  assert (Bp : k * q * dot v u = b * p + a * q).
  { apply (f_equal (dot v)) in B'. rewrite dot_add_r, !dot_scale_r in B'. exact B'. }
  assert (b0 : b = 0).
  { assert (H : b * (p * p + q * q) = 0) by nsatz. apply Rmult_integral in H. destruct H as [H|H]; [exact H|].
    assert (p = 0) by nra. assert (q = 0) by nra. 
    assert (X : vsub (vscale a x) (vscale b y) = vzero) by (rewrite <- A'; rewrite H0; apply vec_eq; cbn; ring).
    assert (Y : vadd (vscale b x) (vscale a y) = vzero) by (rewrite <- B'; rewrite H1; apply vec_eq; cbn; ring).
    assert (Xy : a * dot y x - b * dot y y = 0).
    { apply (f_equal (dot y)) in X. rewrite dot_sub_r, !dot_scale_r in X. rewrite X. unfold dot, vzero; cbn; ring. }
    assert (Yx : b * dot x x + a * dot x y = 0).
    { apply (f_equal (dot x)) in Y. rewrite dot_add_r, !dot_scale_r in Y. rewrite Y. unfold dot, vzero; cbn; ring. }
    rewrite (dot_comm y x) in Xy. assert (b * (dot x x + dot y y) = 0) by lra. rewrite N in H2. lra. }
  split; [exact b0|]. specialize (Z b0). unfold is_unit. rewrite Z in N.
  split; [unfold dot, vzero in N |- *; cbn [vx vy vz] in N; lra|].
  rewrite A', b0. apply vec_eq; cbn; ring.
Qed.
(** eigenvectors of other eigenvalues than 1 are along u *)
Lemma dyad_along k u v e : pair3_ok (dyad k u v) e -> wre e <> 1 -> exists c, vre e = vscale c u /\ k * dot v (vre e) <> 0.
Proof.
  intros P N. destruct (dyad_pair k u v e P) as (_ & U & E). exists (/ (wre e - 1) * (k * dot v (vre e))). split.
  - assert (W : wre e - 1 <> 0) by lra. destruct (vre e) as [x y z], u as [a b c]. revert E. generalize (k * dot v (V x y z)). intros s E.
    unfold vscale in *. cbn [vx vy vz] in *. injection E as E1 E2 E3. apply vec_eq; cbn [vx vy vz]; rewrite Rmult_assoc; [rewrite E1|rewrite E2|rewrite E3]; field; exact W.
  - intros K. rewrite K in E. assert (Z : vscale (wre e - 1) (vre e) = vzero) by (rewrite <- E; apply vec_eq; cbn; ring).
    apply vscale_zero in Z. unfold is_unit in U. destruct Z; lra.
Qed.

(** ** Rotations *)
Lemma rodrigues_vec s c u x : mvec (mtrans (rodrigues s c u)) x = vsub (vadd (vscale c x) (vscale ((1 - c) * dot u x) u)) (vscale s (cross u x)).
Proof. destruct u as [ua ub uc], x as [xa xb xc]. unfold rodrigues, mtrans, mvec, vadd, vsub, vscale, dot, cross; cbn [vx vy vz r1 r2 r3]. apply vec_eq; cbn [vx vy vz]; ring. Qed.
Lemma cross_orth u x : dot u (cross u x) = 0.
Proof. vsimp. ring. Qed.
Lemma cross_orth_r u x : dot x (cross u x) = 0.
Proof. vsimp. ring. Qed.
Lemma cross_swap u x y : dot y (cross u x) = - dot x (cross u y).
Proof. vsimp. ring. Qed.
Lemma dot_vec4 x s c k f u : dot x (vsub (vadd (vscale c u) (vscale k f)) s) = c * dot x u + k * dot x f - dot x s.
Proof. vsimp. ring. Qed.
(** the real part of an eigenvalue of a rotation is the cosine of the angle, or the eigenvalue is 1 *)
Lemma rotation_pair s c u e : is_unit u -> pair3_ok (mtrans (rodrigues s c u)) e -> (wre e = 1 /\ wim e = 0) \/ wre e = c.
Proof.
  intros U (A & B & N & _). unfold is_unit in U. rewrite rodrigues_vec in A, B.
  set (x := vre e) in *. set (y := vim e) in *. set (a := wre e) in *. set (b := wim e) in *.
  pose proof (f_equal (dot u) A) as Au. pose proof (f_equal (dot u) B) as Bu. rewrite dot_vec4, dot_scale_r, cross_orth in Au, Bu.
  rewrite U in Au, Bu. rewrite dot_sub_r, !dot_scale_r in Au. rewrite dot_add_r, !dot_scale_r in Bu.
  pose proof (f_equal (dot x) A) as Ax. pose proof (f_equal (dot y) B) as By. rewrite dot_vec4, dot_scale_r, cross_orth_r in Ax, By.
  rewrite dot_sub_r, !dot_scale_r in Ax. rewrite dot_add_r, !dot_scale_r in By.
  rewrite (dot_comm x u) in Ax. rewrite (dot_comm y u), (dot_comm y x) in By.
  set (p := dot u x) in *. set (q := dot u y) in *. clearbody x y a b p q. clear A B.
  assert (H : ((a - 1) * (a - 1) + b * b) * (p * p + q * q) = 0) by nsatz.
  apply Rmult_integral in H. destruct H as [H|H]; [left|right].
  { destruct (Rsq_zero (a - 1) b); [lra|]. split; lra. }
  assert (P0 : p = 0) by nra. assert (Q0 : q = 0) by nra. rewrite P0 in Ax. rewrite Q0 in By.
  assert (H2 : (a - c) * (dot x x + dot y y) = 0) by lra. rewrite N in H2. lra.
Qed.
Lemma rotation_axis s c u x : is_unit u -> is_unit x -> c <> 1 -> mvec (mtrans (rodrigues s c u)) x = x -> x = u \/ x = vneg u.
Proof.
  intros U X C E. rewrite rodrigues_vec in E. pose proof (f_equal (dot x) E) as Ex. rewrite dot_vec4, dot_scale_r, cross_orth_r in Ex.
  unfold is_unit in *. rewrite X, (dot_comm x u) in Ex. set (p := dot u x) in *.
  assert (P : (1 - c) * (p * p - 1) = 0) by lra. apply Rmult_integral in P. destruct P as [P|P]; [lra|].
  assert (Z : vsub x (vscale p u) = vzero).
  { apply dot_zero. transitivity (dot x x - 2 * p * dot u x + p * p * dot u u); [vsimp; ring|]. rewrite X, U. fold p. lra. }
  assert (P' : (p - 1) * (p + 1) = 0) by lra. apply Rmult_integral in P'. destruct P' as [P'|P'].
  - left. replace p with 1 in Z by lra. destruct x as [xa xb xc], u as [ua ub uc]. unfold vsub, vscale, vzero in Z; cbn [vx vy vz] in Z. injection Z as Z1 Z2 Z3. apply vec_eq; cbn [vx vy vz]; lra.
  - right. replace p with (-1) in Z by lra. destruct x as [xa xb xc], u as [ua ub uc]. unfold vsub, vscale, vzero in Z; cbn [vx vy vz] in Z. injection Z as Z1 Z2 Z3. apply vec_eq; cbn [vx vy vz vneg]; lra.
Qed.
Lemma rotation_det s c u : is_unit u -> s * s + c * c = 1 -> mdet (msub (mscale 1 Vec.mid) (mtrans (rodrigues s c u))) = 0.
Proof.
  unfold is_unit. destruct u as [x y z]. unfold mdet, msub, cross, rodrigues, mtrans, mscale, Vec.mid, vsub, vscale, dot; cbn [vx vy vz r1 r2 r3].
  intros U S. nsatz.
Qed.
(** the angle found for the axis or its opposite *)
Lemma rotation_angle s c u : is_unit u -> s * s + c * c = 1 ->
  rotation_from_matrix (rodrigues s c u) u = (atan2 s c, u).
Proof.
  intros U S. unfold rotation_from_matrix.
  assert (T : (mtrace (rodrigues s c u) - 1) / 2 = c).
  { unfold is_unit in U. destruct u as [x y z]. unfold mtrace, rodrigues, dot in *; cbn [vx vy vz r1 r2 r3] in *. replace (z * z) with (1 - x * x - y * y) by lra. field. }
  rewrite T. clear T. unfold is_unit in U. destruct u as [x y z]. unfold rodrigues, dot in *; cbn [vx vy vz r1 r2 r3] in *. f_equal. f_equal.
  assert (E : 0 < / 10 ^ 8) by (apply Rinv_0_lt_compat, pow_lt; lra).
  destruct (Rltb_spec (/ 10 ^ 8) (Rabs z)) as [Z|Z].
  { field. intros ->. rewrite Rabs_R0 in Z. lra. }
  destruct (Rltb_spec (/ 10 ^ 8) (Rabs y)) as [Y|Y].
  { field. intros ->. rewrite Rabs_R0 in Y. lra. }
  field. intros ->. assert (E1 : / 10 ^ 8 < 1 / 2) by lra. set (eps := / 10 ^ 8) in *. clearbody eps.
  assert (y * y <= 1 / 4) by (unfold Rabs in Y; destruct (Rcase_abs y); nra).
  assert (z * z <= 1 / 4) by (unfold Rabs in Z; destruct (Rcase_abs z); nra). lra.
Qed.
