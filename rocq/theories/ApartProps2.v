(** C158, C159: mirrors, scalings, shears and projections taken apart and put together again. *)
From Coq Require Import Reals List Bool Lra Psatz Nsatz.
From Verif Require Import Base Vec OpticsModel TransformModel TransformProofs MatrixModel MatrixProofs ApartModel ApartProofs ApartProps.
Import ListNotations.
Open Scope R_scope.

(** ** C158: mirrors, scalings, shears *)
Lemma mirror_shift n p : Rigid (msub Vec.mid (mscale 2 (outer n n))) (vscale (2 * dot p n) n) = shift (-2) n n p.
Proof.
  unfold shift, dyad. f_equal.
  - destruct n as [a b c]. unfold msub, madd, mscale, outer, Vec.mid, vsub, vadd, vscale; cbn [vx vy vz r1 r2 r3]. apply mat_eq; cbn [r1 r2 r3]; apply vec_eq; cbn [vx vy vz]; ring.
  - rewrite (dot_comm n p). apply vec_eq; cbn [vscale vx vy vz]; ring.
Qed.
Lemma scale_shift f d o : Rigid (msub Vec.mid (mscale (1 - f) (outer d d))) (vscale ((1 - f) * dot o d) d) = shift (f - 1) d d o.
Proof.
  unfold shift, dyad. f_equal.
  - destruct d as [a b c]. unfold msub, madd, mscale, outer, Vec.mid, vsub, vadd, vscale; cbn [vx vy vz r1 r2 r3]. apply mat_eq; cbn [r1 r2 r3]; apply vec_eq; cbn [vx vy vz]; ring.
  - rewrite (dot_comm d o). apply vec_eq; cbn [vscale vx vy vz]; ring.
Qed.
Lemma shear_shift t d n p : Rigid (madd Vec.mid (mscale t (outer d n))) (vscale (- t * dot p n) d) = shift t d n p.
Proof. unfold shift, dyad. f_equal. rewrite (dot_comm n p). apply vec_eq; cbn [vscale vx vy vz]; ring. Qed.
Lemma shift_signs k c e u v p : c * e = 1 -> shift k (vscale c u) (vscale e v) p = shift k u v p.
Proof.
  intros E. unfold shift, dyad. f_equal.
  - f_equal. destruct u as [u1 u2 u3], v as [v1 v2 v3]. unfold mscale, outer, vscale; cbn [vx vy vz r1 r2 r3].
    assert (G : forall a b, k * (c * a * (e * b)) = k * (a * b)) by (intros a b; transitivity (c * e * (k * (a * b))); [ring|rewrite E; ring]).
    apply mat_eq; cbn [r1 r2 r3]; apply vec_eq; cbn [vx vy vz]; apply G.
  - rewrite dot_scale_l. assert (G : forall a, - (k * (e * dot v p)) * (c * a) = - (k * dot v p) * a) by (intros a; transitivity (c * e * (- (k * dot v p) * a)); [ring|rewrite E; ring]).
    apply vec_eq; cbn [vscale vx vy vz]; apply G.
Qed.

Theorem C158_mirror : forall eig3 eig4 point normal m, reflection_matrix point normal = Some m ->
  eig3_spec (rot m) (eig3 (rot m)) -> eig4_spec (hom_of m) (eig4 (hom_of m)) -> anchored (eig4 (hom_of m)) ->
  exists point' normal', reflection_from_matrix eig3 eig4 m = Some (point', normal') /\ reflection_matrix point' normal' = Some m.
Proof.
  intros eig3 eig4 point normal m H L3 L4 A. unfold reflection_matrix in H. destruct (unit_vector normal) as [n|] eqn:En; [|discriminate].
  destruct (unit_vector_unit _ _ En) as [U _]. rewrite mirror_shift in H. injection H as <-.
  destruct (fixed_point_ok eig4 _ L4 A) as (p & Fp & Kp). cbn [shift rot] in L3.
  destruct (near3_first _ _ (-1) e8 L3 e8_pos) as (e & Fe & Ie & Ne).
  { replace (-1) with (1 + -2 * dot n n) at 1 by (unfold is_unit in U; rewrite U; ring). apply dyad_det. }
  assert (P : pair3_ok (dyad (-2) n n) e) by now apply L3.
  assert (W : wre e <> 1). { intros E. rewrite E in Ne. rewrite Rabs_right in Ne by lra. unfold e8 in Ne. lra. }
  destruct (dyad_along _ _ _ _ P W) as (c & Ec & _). destruct (dyad_pair _ _ _ _ P) as (_ & Ue & _).
  exists p, (vre e). unfold reflection_from_matrix. cbn [shift rot]. rewrite Fe. fold (shift (-2) n n point). rewrite Fp. split; [reflexivity|].
  unfold reflection_matrix. rewrite (unit_vector_of_unit _ Ue), mirror_shift, (shift_point _ _ _ _ _ Kp), Ec. f_equal. apply shift_signs.
  destruct (sign_of_unit n (vre e) c U Ue Ec) as [->| ->]; ring.
Qed.
Print Assumptions C158_mirror.

(** Scaling along a direction: not proved for factors within 1e-8 of 1 other than 1. *)
Theorem C158_scale_direction_partial : forall eig3 eig4 factor origin direction m, scale_matrix factor origin (Some direction) = Some m ->
  / 10 ^ 8 <= Rabs (factor - 1) \/ factor = 1 ->
  eig3_spec (rot m) (eig3 (rot m)) -> eig4_spec (hom_of m) (eig4 (hom_of m)) -> anchored (eig4 (hom_of m)) ->
  exists factor' origin' direction', scale_from_matrix eig3 eig4 m = Some (factor', origin', Some direction') /\ factor' = factor /\
    scale_matrix factor' (Some origin') (Some direction') = Some m.
Proof.
  intros eig3 eig4 f o direction m H Hf L3 L4 A. unfold scale_matrix in H. destruct (unit_vector direction) as [d|] eqn:Ed; [|discriminate].
  destruct (unit_vector_unit _ _ Ed) as [U _].
  assert (Em : exists q, m = shift (f - 1) d d q).
  { destruct o as [o|]; injection H as <-; [exists o; apply scale_shift|exists vzero]. rewrite <- scale_shift. f_equal. apply vec_eq; cbn [vscale vzero vx vy vz dot]; unfold dot; cbn; ring. }
  destruct Em as (q & ->). clear H. destruct (fixed_point_ok eig4 _ L4 A) as (p & Fp & Kp). cbn [shift rot] in L3.
  assert (T : mtrace (dyad (f - 1) d d) - 2 = f) by (rewrite dyad_trace; unfold is_unit in U; rewrite U; ring).
  destruct (near3_first _ _ f e8 L3 e8_pos) as (e & Fe & Ie & Ne).
  { replace f with (1 + (f - 1) * dot d d) at 1 by (unfold is_unit in U; rewrite U; ring). apply dyad_det. }
  assert (P : pair3_ok (dyad (f - 1) d d) e) by now apply L3. destruct (dyad_pair _ _ _ _ P) as (_ & Ue & Ke).
  exists f, p, (vre e). unfold scale_from_matrix. cbn [shift rot]. rewrite T, Fe, (unit_vector_of_unit _ Ue). fold (shift (f - 1) d d q). rewrite Fp.
  split; [reflexivity|]. split; [reflexivity|]. unfold scale_matrix. rewrite (unit_vector_of_unit _ Ue), scale_shift, (shift_point _ _ _ _ _ Kp). f_equal.
  destruct Hf as [Hf|Hf].
  - assert (W : wre e <> 1). { intros E. rewrite E in Ne. fold e8 in Hf. rewrite Rabs_minus_sym in Hf. lra. }
    destruct (dyad_along _ _ _ _ P W) as (c & Ec & _). rewrite Ec. apply shift_signs. destruct (sign_of_unit d (vre e) c U Ue Ec) as [->| ->]; ring.
  - subst f. unfold shift, dyad. f_equal.
    + f_equal. destruct d as [d1 d2 d3], (vre e) as [x1 x2 x3]. unfold mscale, outer, vscale; cbn [vx vy vz r1 r2 r3]. apply mat_eq; cbn [r1 r2 r3]; apply vec_eq; cbn [vx vy vz]; ring.
    + apply vec_eq; cbn [vscale vx vy vz]; ring.
Qed.
Print Assumptions C158_scale_direction_partial.

(** Uniform scaling: not for factors within 5e-9 of 1 other than 1. *)
Lemma uniform_pair f e : pair3_ok (mscale f Vec.mid) e -> wre e = f.
Proof.
  intros (A & B & N & _). destruct (vre e) as [a1 a2 a3], (vim e) as [b1 b2 b3]. set (w := wre e) in *. set (b := wim e) in *.
  unfold mvec, mscale, Vec.mid, vadd, vsub, vscale, dot in *. cbn [vx vy vz r1 r2 r3] in *. injection A as A1 A2 A3. injection B as B1 B2 B3.
  assert (H : (w - f) * (a1 * a1 + a2 * a2 + a3 * a3 + (b1 * b1 + b2 * b2 + b3 * b3)) = 0).
  { transitivity (a1 * (w * a1 - b * b1 - f * a1) + a2 * (w * a2 - b * b2 - f * a2) + a3 * (w * a3 - b * b3 - f * a3)
      + (b1 * (b * a1 + w * b1 - f * b1) + b2 * (b * a2 + w * b2 - f * b2) + b3 * (b * a3 + w * b3 - f * b3))); [ring|].
    rewrite <- A1, <- A2, <- A3, <- B1, <- B2, <- B3. ring. }
  rewrite N in H. lra.
Qed.
Lemma uniform_det f : mdet (msub (mscale f Vec.mid) (mscale f Vec.mid)) = 0.
Proof. unfold mdet, msub, mscale, Vec.mid, vsub, vscale, cross, dot; cbn [vx vy vz r1 r2 r3]. ring. Qed.
Theorem C158_scale_uniform_partial : forall eig3 eig4 factor origin m, scale_matrix factor origin None = Some m ->
  / 10 ^ 8 <= 2 * Rabs (factor - 1) \/ factor = 1 ->
  eig3_spec (rot m) (eig3 (rot m)) -> eig4_spec (hom_of m) (eig4 (hom_of m)) -> anchored (eig4 (hom_of m)) ->
  exists factor' origin' direction', scale_from_matrix eig3 eig4 m = Some (factor', origin', direction') /\ factor' = factor /\
    scale_matrix factor' (Some origin') direction' = Some m.
Proof.
  intros eig3 eig4 f o m H Hf L3 L4 A. cbn [scale_matrix] in H.
  set (t := match o with Some o => vscale (1 - f) o | None => vzero end) in H.
  assert (Ht : f = 1 -> t = vzero) by (intros ->; unfold t; destruct o; apply vec_eq; cbn; ring). clearbody t.
  injection H as <-. destruct (fixed_point_ok eig4 _ L4 A) as (p & Fp & Kp). cbn [rot] in L3.
  assert (T : mtrace (mscale f Vec.mid) - 2 = 3 * f - 2) by (unfold mtrace, mscale, Vec.mid, vscale; cbn [vx vy vz r1 r2 r3]; ring).
  assert (Tp : vscale (1 - f) p = t).
  { unfold to_point in Kp; cbn [rot tra] in Kp. destruct p as [p1 p2 p3], t as [t1 t2 t3]. unfold mvec, mscale, Vec.mid, vadd, vscale, dot in *; cbn [vx vy vz r1 r2 r3] in *.
    injection Kp as K1 K2 K3. apply vec_eq; cbn [vx vy vz]; lra. }
  unfold scale_from_matrix. cbn [rot]. rewrite T, Fp. destruct Hf as [Hf|Hf].
  - assert (E : near3 (3 * f - 2) e8 (eig3 (mscale f Vec.mid)) = []).
    { destruct (near3 (3 * f - 2) e8 (eig3 (mscale f Vec.mid))) as [|e r] eqn:E; [reflexivity|exfalso].
      assert (I : In e (near3 (3 * f - 2) e8 (eig3 (mscale f Vec.mid)))) by (rewrite E; now left). apply near3_in in I. destruct I as [I N].
      destruct L3 as (_ & L3 & _). rewrite (uniform_pair _ _ (L3 e I)) in N. fold e8 in Hf.
      replace (f - (3 * f - 2)) with (-2 * (f - 1)) in N by ring. rewrite Rabs_mult, (Rabs_left (-2)) in N by lra. lra. }
    rewrite E. cbn [first]. exists ((3 * f - 2 + 2) / 3), p, None. split; [reflexivity|].
    replace ((3 * f - 2 + 2) / 3) with f by field. split; [reflexivity|]. cbn [scale_matrix]. now rewrite Tp.
  - assert (F : 3 * f - 2 = f) by lra. rewrite F. destruct (near3_first _ _ f e8 L3 e8_pos (uniform_det f)) as (e & Fe & Ie & Ne). rewrite Fe.
    assert (U : is_unit (vre e)).
    { destruct L3 as (_ & L3 & _). specialize (L3 e Ie). assert (D : mscale f Vec.mid = dyad 0 vzero vzero).
      { rewrite Hf. unfold dyad, mscale, outer, madd, Vec.mid, vadd, vscale, vzero; cbn [vx vy vz r1 r2 r3]. apply mat_eq; cbn [r1 r2 r3]; apply vec_eq; cbn [vx vy vz]; ring. }
      rewrite D in L3. now destruct (dyad_pair _ _ _ _ L3) as (_ & U & _). }
    rewrite (unit_vector_of_unit _ U). exists f, p, (Some (vre e)). split; [reflexivity|]. split; [reflexivity|].
    unfold scale_matrix. rewrite (unit_vector_of_unit _ U), (Ht Hf). subst f. f_equal. f_equal.
    + destruct (vre e) as [x1 x2 x3]. unfold msub, mscale, outer, Vec.mid, vsub, vscale; cbn [vx vy vz r1 r2 r3]. apply mat_eq; cbn [r1 r2 r3]; apply vec_eq; cbn [vx vy vz]; ring.
    + apply vec_eq; cbn [vscale vzero vx vy vz]; ring.
Qed.
Print Assumptions C158_scale_uniform_partial.

(** Within 5e-9 of 1 a uniform scaling is taken for a scaling along one direction, whatever eig returns. *)
Definition unit_pairs (f : R) : list pair3 := [P3 f 0 (V 1 0 0) vzero; P3 f 0 (V 0 1 0) vzero; P3 f 0 (V 0 0 1) vzero].
Definition unit_pairs4 (f : R) : list pair4 :=
  [P4 f 0 (V 1 0 0) 0 vzero 0; P4 f 0 (V 0 1 0) 0 vzero 0; P4 f 0 (V 0 0 1) 0 vzero 0; origin4].
Lemma unit_pairs_ok f : eig3_spec (mscale f Vec.mid) (unit_pairs f).
Proof.
  split; [reflexivity|]. unfold unit_pairs. split.
  - unfold mscale, Vec.mid, vscale; cbn [vx vy vz r1 r2 r3]. intros e [<-|[<-|[<-|[]]]]; (split; [|split; [|split]]); cbn [wre wim vre vim]; unv; eigen.
  - det3. ring.
Qed.
Lemma unit_pairs4_ok f : eig4_spec (hom_of (Rigid (mscale f Vec.mid) vzero)) (unit_pairs4 f).
Proof.
  split; [reflexivity|]. unfold unit_pairs4, origin4. split.
  - unfold mscale, Vec.mid, vscale; cbn [vx vy vz r1 r2 r3].
    intros e [<-|[<-|[<-|[<-|[]]]]]; (split; [|split; [|split; [|split; [|split]]]]); cbn [ure uim are aim hre him hom_of lin col row cor rot tra]; unv; eigen.
  - det4. ring.
Qed.
Lemma unit_pairs4_anchored f : anchored (unit_pairs4 f).
Proof.
  intros e. unfold unit_pairs4, near4. cbn [filter ure origin4].
  replace (Rltb (Rabs (1 - 1)) e8) with true by (symmetry; apply Rltb_true; replace (1 - 1) with 0 by ring; rewrite Rabs_R0; apply e8_pos).
  destruct (Rltb _ _); cbn [final rev first app]; intros E; injection E as <-; cbn; lra.
Qed.
Theorem C158_scale_refuted : exists factor m, scale_matrix factor None None = Some m /\
  (exists eig3 eig4, eig3_spec (rot m) (eig3 (rot m)) /\ eig4_spec (hom_of m) (eig4 (hom_of m)) /\ anchored (eig4 (hom_of m))) /\
  forall eig3 eig4 factor' origin' direction', eig3_spec (rot m) (eig3 (rot m)) ->
    scale_from_matrix eig3 eig4 m = Some (factor', origin', direction') -> scale_matrix factor' (Some origin') direction' <> Some m.
Proof.
  set (f := 1 + / 10 ^ 9). exists f. eexists. split; [reflexivity|]. split.
  { exists (fun _ => unit_pairs f), (fun _ => unit_pairs4 f). cbn [rot]. split; [apply unit_pairs_ok|]. split; [apply unit_pairs4_ok|apply unit_pairs4_anchored]. }
  intros eig3 eig4 f' o' d' L3 H. cbn [rot] in L3. unfold scale_from_matrix in H. cbn [rot] in H.
  assert (T : mtrace (mscale f Vec.mid) - 2 = 3 * f - 2) by (unfold mtrace, mscale, Vec.mid, vscale; cbn [vx vy vz r1 r2 r3]; ring). rewrite T in H.
  destruct (spectrum3 _ _ f L3 (uniform_det f)) as (e & I & We & _).
  destruct (first_some (near3 (3 * f - 2) e8 (eig3 (mscale f Vec.mid))) e) as (e' & F).
  { apply near3_in. split; [exact I|]. rewrite We. replace (f - (3 * f - 2)) with (-2 * (f - 1)) by ring. unfold f, e8. rewrite Rabs_left; lra. }
  rewrite F in H. destruct (unit_vector (vre e')) as [d|] eqn:Ed; [|discriminate]. destruct (fixed_point _ _); [|discriminate]. injection H as <- <- <-.
  intros E. unfold scale_matrix in E. destruct (unit_vector d) as [u|] eqn:Eu; [|discriminate].
  destruct (unit_vector_unit _ _ Eu) as [U _]. unfold is_unit in U.
  apply (f_equal (fun o => match o with Some g => mtrans (rot g) | None => Vec.mid end)) in E. cbn [rot] in E.
  unfold msub, mscale, outer, Vec.mid, mtrans, vsub, vscale in E. cbn [vx vy vz r1 r2 r3] in E.
  pose proof (f_equal (fun m => vx (r1 m)) E) as E1. pose proof (f_equal (fun m => vy (r2 m)) E) as E2. pose proof (f_equal (fun m => vx (r2 m)) E) as E3.
  pose proof (f_equal (fun m => vz (r3 m)) E) as E4. cbn [vx vy vz r1 r2 r3] in E1, E2, E3, E4. destruct u as [a b c]. unfold dot in U; cbn [vx vy vz] in *.
  assert (K : f - 1 <> 0) by (unfold f; lra). clearbody f.
  assert (A1 : (f - 1) * (3 * (a * a) - 1) = 0) by lra. assert (B1 : (f - 1) * (3 * (b * b) - 1) = 0) by lra.
  assert (C1 : (f - 1) * (a * b) = 0) by lra.
  apply Rmult_integral in A1, B1, C1. destruct A1 as [|A1]; [contradiction|]. destruct B1 as [|B1]; [contradiction|]. destruct C1 as [|C1]; [contradiction|].
  apply Rmult_integral in C1. destruct C1; subst; lra.
Qed.
Print Assumptions C158_scale_refuted.

(** *** Shears *)
Lemma shift_scaled k k1 c e u v p : k1 * (c * e) = k -> shift k1 (vscale c u) (vscale e v) p = shift k u v p.
Proof.
  intros E. unfold shift, dyad. f_equal.
  - f_equal. destruct u as [u1 u2 u3], v as [v1 v2 v3]. unfold mscale, outer, vscale; cbn [vx vy vz r1 r2 r3].
    assert (G : forall a b, k1 * (c * a * (e * b)) = k * (a * b)) by (intros a b; transitivity (k1 * (c * e) * (a * b)); [ring|rewrite E; ring]).
    apply mat_eq; cbn [r1 r2 r3]; apply vec_eq; cbn [vx vy vz]; apply G.
  - rewrite dot_scale_l. assert (G : forall a, - (k1 * (e * dot v p)) * (c * a) = - (k * dot v p) * a) by (intros a; transitivity (k1 * (c * e) * (- dot v p * a)); [ring|rewrite E; ring]).
    apply vec_eq; cbn [vscale vx vy vz]; apply G.
Qed.
Lemma shear_pair k d n e : is_unit d -> dot n d = 0 -> k <> 0 -> pair3_ok (dyad k d n) e -> wre e = 1 /\ dot n (vre e) = 0.
Proof.
  intros U O K P. destruct (dyad_pair _ _ _ _ P) as (_ & Ue & E). unfold is_unit in *.
  assert (N : dot n (vre e) = 0).
  { destruct (Req_dec (dot n (vre e)) 0) as [|N]; [assumption|exfalso]. pose proof (f_equal (dot n) E) as En. rewrite !dot_scale_r, O in En.
    assert (W : (wre e - 1) * dot n (vre e) = 0) by lra. apply Rmult_integral in W. destruct W as [W|W]; [|contradiction].
    rewrite W in E. pose proof (f_equal (dot d) E) as Ed. rewrite !dot_scale_r, U in Ed. assert (Z : k * dot n (vre e) = 0) by lra.
    apply Rmult_integral in Z. destruct Z; contradiction. }
  split; [|exact N]. rewrite N in E. pose proof (f_equal (dot (vre e)) E) as Ex. rewrite !dot_scale_r, Ue in Ex. lra.
Qed.
Lemma cross_in_plane n a b : is_unit n -> dot n a = 0 -> dot n b = 0 -> cross a b = vscale (dot n (cross a b)) n.
Proof.
  intros U A B. unfold is_unit in U.
  assert (Z : cross n (cross a b) = vsub (vscale (dot n b) a) (vscale (dot n a) b)) by (apply vec_eq; vsimp; ring).
  rewrite A, B in Z. set (w := cross a b) in *. clearbody w.
  assert (I : vscale (dot n n) w = vsub (vscale (dot n w) n) (cross n (cross n w))) by (apply vec_eq; vsimp; ring).
  rewrite U, Z in I. transitivity (vscale 1 w); [apply vec_eq; cbn [vscale vx vy vz]; ring|]. rewrite I. apply vec_eq; vsimp; ring.
Qed.
Lemma norm_vscale k a : norm (vscale k a) = Rabs k * norm a.
Proof.
  unfold norm. rewrite dot_scale_l, dot_scale_r, <- Rmult_assoc, sqrt_mult by (try apply dot_self_nonneg; nra).
  f_equal. apply sqrt_Rsqr_abs.
Qed.
Lemma longest_of a b c : let m := longest c (longest b (longest a (-1, vzero))) in
  fst m = norm (snd m) /\ (snd m = a \/ snd m = b \/ snd m = c) /\ norm a <= fst m /\ norm b <= fst m /\ norm c <= fst m.
Proof.
  cbn zeta. pose proof (norm_nonneg a). assert (E : longest a (-1, vzero) = (norm a, a)).
  { unfold longest. cbn [fst]. destruct (Rltb_spec (-1) (norm a)); [reflexivity|lra]. }
  rewrite E. unfold longest. cbn [fst].
  destruct (Rltb_spec (norm a) (norm b)); cbn [fst snd];
    match goal with |- context [Rltb ?x (norm c)] => destruct (Rltb_spec x (norm c)) end; cbn [fst snd]; (split; [reflexivity|]); (split; [auto|]); lra.
Qed.
Definition independent (l : list pair3) : Prop := exists e1 e2, In e1 l /\ In e2 l /\ cross (vre e1) (vre e2) <> vzero.
Theorem C158_shear_partial : forall eig3 eig4 angle direction point normal m, shear_matrix angle direction point normal = Some m ->
  dot normal direction = 0 -> tan angle <> 0 ->
  eig3_spec (rot m) (eig3 (rot m)) -> independent (eig3 (rot m)) -> eig4_spec (hom_of m) (eig4 (hom_of m)) -> anchored (eig4 (hom_of m)) ->
  exists angle' direction' point' normal', shear_from_matrix eig3 eig4 m = Some (angle', direction', point', normal') /\
    shear_matrix angle' direction' point' normal' = Some m.
Proof.
  intros eig3 eig4 angle direction point normal m H O K L3 Ind L4 A. unfold shear_matrix in H.
  destruct (unit_vector normal) as [n|] eqn:En; [|discriminate]. destruct (unit_vector direction) as [d|] eqn:Ed; [|discriminate].
  destruct (unit_vector_some _ _ En) as (Un & Nn & Zn). destruct (unit_vector_some _ _ Ed) as (Ud & Nd & Zd).
  assert (Q : dot n d = 0).
  { rewrite Nn, Nd, dot_scale_l, dot_scale_r in O. apply Rmult_integral in O. destruct O as [O|O]; [contradiction|].
    apply Rmult_integral in O. destruct O; [contradiction|assumption]. }
  destruct (Rltb _ _); [discriminate|]. set (k := tan angle) in *. rewrite shear_shift in H. injection H as <-. clearbody k.
  destruct (fixed_point_ok eig4 _ L4 A) as (p & Fp & Kp). cbn [shift rot] in L3, Ind.
  assert (P : forall e, In e (eig3 (dyad k d n)) -> wre e = 1 /\ dot n (vre e) = 0).
  { intros e I. apply (shear_pair k d n e Ud Q K). now apply L3. }
  destruct L3 as (Len & _ & _). unfold shear_from_matrix. cbn [shift rot]. fold (shift k d n point). rewrite Fp. clear Fp.
  set (l := eig3 (dyad k d n)) in *. clearbody l. destruct l as [|v0 [|v1 [|v2 [|]]]]; try discriminate.
  destruct (P v0) as [W0 P0]; [now left|]. destruct (P v1) as [W1 P1]; [now right; left|]. destruct (P v2) as [W2 P2]; [now do 2 right; left|].
  unfold near3. cbn [filter]. rewrite W0, W1, W2.
  replace (Rltb (Rabs (1 - 1)) (/ 10 ^ 4)) with true by (symmetry; apply Rltb_true; replace (1 - 1) with 0 by ring; rewrite Rabs_R0; apply Rinv_0_lt_compat, pow_lt; lra).
  set (a := cross (vre v0) (vre v1)). set (b := cross (vre v0) (vre v2)). set (c := cross (vre v1) (vre v2)).
  pose proof (longest_of a b c) as LO. cbn zeta in LO. destruct (longest c (longest b (longest a (-1, vzero)))) as [len v]. cbn [fst snd] in LO.
  destruct LO as (Elen & Ev & La & Lb & Lc).
  assert (Ea : a = vscale (dot n a) n) by (now apply cross_in_plane). assert (Eb : b = vscale (dot n b) n) by (now apply cross_in_plane).
  assert (Ec : c = vscale (dot n c) n) by (now apply cross_in_plane).
  assert (Par : v = vscale (dot n v) n) by (destruct Ev as [->|[->| ->]]; assumption).
  assert (Pos : len <> 0).
  { intros Z. rewrite Z in La, Lb, Lc. assert (Zero : forall x, norm x <= 0 -> x = vzero).
    { intros x Hx. apply dot_zero. rewrite <- norm_sq. pose proof (norm_nonneg x). replace (norm x) with 0 by lra. ring. }
    apply Zero in La, Lb, Lc. destruct Ind as (x1 & x2 & I1 & I2 & X). apply X.
    assert (Anti : forall x y, cross x y = vzero -> cross y x = vzero).
    { intros x y E. replace (cross y x) with (vneg (cross x y)) by (apply vec_eq; vsimp; ring). rewrite E. apply vec_eq; cbn [vneg vzero vx vy vz]; ring. }
    assert (Self : forall x, cross x x = vzero) by (intros x; apply vec_eq; vsimp; ring).
    destruct I1 as [<-|[<-|[<-|[]]]]; destruct I2 as [<-|[<-|[<-|[]]]]; auto. }
  destruct (Reqb_spec len 0); [contradiction|].
  set (g := dot n v) in *. assert (Lg : len = Rabs g).
  { rewrite Elen. clearbody g. rewrite Par, norm_vscale, (norm_unit _ Un). ring. }
  set (sg := / len * g). assert (Esg : sg * sg = 1).
  { unfold sg. transitivity (g * g / (len * len)); [field; assumption|]. rewrite Lg. replace (Rabs g * Rabs g) with (g * g) by (unfold Rabs; destruct (Rcase_abs g); ring).
    field. intros ->. rewrite Rabs_R0 in Lg. contradiction. }
  assert (Enorm : vscale (/ len) v = vscale sg n) by (clearbody g; rewrite Par; unfold sg; apply vec_eq; cbn [vscale vx vy vz]; ring). rewrite Enorm.
  assert (Md : mvec (msub (dyad k d n) Vec.mid) (vscale sg n) = vscale (k * sg) d).
  { transitivity (vsub (mvec (dyad k d n) (vscale sg n)) (vscale sg n)).
    - destruct n as [n1 n2 n3], (dyad k d _) as [[] [] []]. unfold mvec, msub, Vec.mid, vsub, vscale, dot; cbn [Vec.vx Vec.vy Vec.vz r1 r2 r3]. apply vec_eq; cbn [Vec.vx Vec.vy Vec.vz]; ring.
    - rewrite dyad_vec, dot_scale_r. unfold is_unit in Un. rewrite Un. apply vec_eq; cbn [vadd vsub vscale vx vy vz]; ring. }
  rewrite Md. assert (Nk : norm (vscale (k * sg) d) = Rabs k).
  { rewrite norm_vscale, (norm_unit _ Ud), Rabs_mult. assert (S1 : Rabs sg = 1).
    { unfold Rabs. destruct (Rcase_abs sg); nra. } rewrite S1. ring. }
  assert (Rk : Rabs k <> 0) by now apply Rabs_no_R0.
  unfold unit_vector at 1. rewrite Nk. destruct (Reqb_spec (Rabs k) 0); [contradiction|].
  assert (Edir : vscale (/ Rabs k) (vscale (k * sg) d) = vscale (/ Rabs k * (k * sg)) d) by (apply vec_eq; cbn [vscale vx vy vz]; ring). rewrite Edir.
  set (h := / Rabs k * (k * sg)). assert (Eh : Rabs k * (h * sg) = k).
  { unfold h. transitivity (k * (sg * sg)); [field; assumption|]. rewrite Esg. ring. }
  assert (Hh : h * h = 1).
  { unfold h. transitivity (k * k / (Rabs k * Rabs k) * (sg * sg)); [field; assumption|]. replace (Rabs k * Rabs k) with (k * k) by (unfold Rabs; destruct (Rcase_abs k); ring). rewrite Esg. field. exact K. }
  do 4 eexists. split; [reflexivity|]. unfold shear_matrix.
  assert (U1 : is_unit (vscale sg n)) by (unfold is_unit in *; rewrite dot_scale_l, dot_scale_r, Un; lra).
  assert (U2 : is_unit (vscale h d)) by (unfold is_unit in *; rewrite dot_scale_l, dot_scale_r, Ud; lra).
  rewrite (unit_vector_of_unit _ U1), (unit_vector_of_unit _ U2). rewrite dot_scale_l, dot_scale_r, Q.
  replace (Rltb (/ 10 ^ 6) (Rabs (sg * (h * 0)))) with false.
  2:{ symmetry. apply Rltb_false. replace (sg * (h * 0)) with 0 by ring. rewrite Rabs_R0. left. apply Rinv_0_lt_compat, pow_lt. lra. }
  cbn zeta. rewrite atan_right_inv, shear_shift, (shift_point _ _ _ _ _ Kp). f_equal. now apply shift_scaled.
Qed.
Print Assumptions C158_shear_partial.

(** A shear by the angle 0 cannot be taken apart: 0/0. *)
Theorem C158_shear_refuted : exists angle direction point normal m, dot normal direction = 0 /\ shear_matrix angle direction point normal = Some m /\
  forall eig3 eig4, shear_from_matrix eig3 eig4 m = None.
Proof.
  assert (Ux : is_unit (V 1 0 0)) by (unfold is_unit, dot; cbn; ring). assert (Uz : is_unit (V 0 0 1)) by (unfold is_unit, dot; cbn; ring).
  exists 0, (V 1 0 0), (V 0 0 0), (V 0 0 1), (shift 0 (V 1 0 0) (V 0 0 1) (V 0 0 0)). split; [unfold dot; cbn; ring|]. split.
  - unfold shear_matrix. rewrite (unit_vector_of_unit _ Ux), (unit_vector_of_unit _ Uz), tan_0.
    replace (dot (V 0 0 1) (V 1 0 0)) with 0 by (unfold dot; cbn; ring). rewrite Rabs_R0.
    replace (Rltb (/ 10 ^ 6) 0) with false by (symmetry; apply Rltb_false; left; apply Rinv_0_lt_compat, pow_lt; lra).
    cbn zeta. now rewrite shear_shift.
  - intros eig3 eig4. unfold shear_from_matrix. destruct (near3 _ _ _) as [|v0 [|v1 [|v2 [|]]]]; try reflexivity.
    destruct (longest _ _) as [len n]. destruct (Reqb len 0); [reflexivity|].
    replace (mvec (msub (rot (shift 0 (V 1 0 0) (V 0 0 1) (V 0 0 0))) Vec.mid) (vscale (/ len) n)) with vzero.
    + unfold unit_vector. replace (norm vzero) with 0; [|unfold norm; replace (dot vzero vzero) with 0 by (unfold dot, vzero; cbn; ring); symmetry; apply sqrt_0].
      destruct (Reqb_spec 0 0); [reflexivity|lra].
    + unfold shift, dyad, msub, madd, mscale, outer, Vec.mid, mvec, vsub, vadd, vscale, dot, vzero; cbn [vx vy vz r1 r2 r3 rot]. apply vec_eq; cbn [vx vy vz]; ring.
Qed.
Print Assumptions C158_shear_refuted.

(** The mirror x = 1. *)
Example C158_example_mirror : exists m l3 l4, reflection_matrix (V 1 5 7) (V 2 0 0) = Some m /\
  eig3_spec (rot m) l3 /\ eig4_spec (hom_of m) l4 /\ anchored l4 /\
  reflection_from_matrix (fun _ => l3) (fun _ => l4) m = Some (V 1 0 0, V 1 0 0).
Proof.
  pose proof half_root as Hr. assert (R0 : / sqrt 2 <> 0) by (intros E; rewrite E in Hr; lra).
  exists (Rigid (M (V (-1) 0 0) (V 0 1 0) (V 0 0 1)) (V 2 0 0)),
    [P3 (-1) 0 (V 1 0 0) vzero; P3 1 0 (V 0 1 0) vzero; P3 1 0 (V 0 0 1) vzero],
    [P4 (-1) 0 (V 1 0 0) 0 vzero 0; P4 1 0 (V 0 1 0) 0 vzero 0; P4 1 0 (V 0 0 1) 0 vzero 0; P4 1 0 (V (/ sqrt 2) 0 0) (/ sqrt 2) vzero 0].
  set (r := / sqrt 2) in *. clearbody r.
  assert (N1 : Rltb (Rabs (1 - 1)) e8 = true) by (apply Rltb_true; replace (1 - 1) with 0 by ring; rewrite Rabs_R0; apply e8_pos).
  assert (N2 : Rltb (Rabs (-1 - -1)) e8 = true) by (apply Rltb_true; replace (-1 - -1) with 0 by ring; rewrite Rabs_R0; apply e8_pos).
  assert (N3 : Rltb (Rabs (-1 - 1)) e8 = false) by (apply Rltb_false; unfold e8; rewrite Rabs_left; lra).
  assert (N4 : Rltb (Rabs (1 - -1)) e8 = false) by (apply Rltb_false; unfold e8; rewrite Rabs_right; lra).
  split; [|split; [|split; [|split]]].
  - unfold reflection_matrix. replace (unit_vector (V 2 0 0)) with (Some (V 1 0 0)).
    2:{ unfold unit_vector, norm, dot; cbn [vx vy vz]. replace (2 * 2 + 0 * 0 + 0 * 0) with (2 * 2) by ring. rewrite sqrt_square by lra.
        destruct (Reqb_spec 2 0); [lra|]. f_equal. unfold vscale; cbn [vx vy vz]. apply vec_eq; cbn [vx vy vz]; field. }
    f_equal. f_equal; [unfold msub, mscale, outer, Vec.mid, vsub, vscale; cbn [vx vy vz r1 r2 r3]; apply mat_eq; cbn [r1 r2 r3]; apply vec_eq; cbn [vx vy vz]; ring|].
    unfold vscale, dot; cbn [vx vy vz]. apply vec_eq; cbn [vx vy vz]; ring.
  - split; [reflexivity|]. split; [|cbn [rot]; det3; ring].
    intros e [<-|[<-|[<-|[]]]]; (split; [|split; [|split]]); cbn [wre wim vre vim rot]; unv; eigen.
  - split; [reflexivity|]. split; [|det4; ring].
    intros e [<-|[<-|[<-|[<-|[]]]]]; (split; [|split; [|split; [|split; [|split]]]]); cbn [ure uim are aim hre him hom_of lin col row cor rot tra]; unv; eigen.
  - intros e. unfold near4. cbn [filter ure]. rewrite N1, N3. cbn [final rev first app]. intros E. injection E as <-. exact R0.
  - unfold reflection_from_matrix, fixed_point, near3, near4. cbn [filter ure wre]. rewrite N1, N2, N3. cbn [final rev first app]. unfold dehom; cbn [hre are vre].
    destruct (Reqb_spec r 0); [contradiction|]. f_equal. f_equal. unfold vscale; cbn [vx vy vz]. apply vec_eq; cbn [vx vy vz]; field; exact R0.
Qed.
(** Scaling by 2 about the origin, and the shear x + z: the conditions of the theorems hold. *)
Example C158_example_scale : exists m, scale_matrix 2 None None = Some m /\ / 10 ^ 8 <= 2 * Rabs (2 - 1) /\
  eig3_spec (rot m) (unit_pairs 2) /\ eig4_spec (hom_of m) (unit_pairs4 2) /\ anchored (unit_pairs4 2).
Proof.
  eexists. split; [reflexivity|]. split; [rewrite Rabs_right; lra|]. split; [apply unit_pairs_ok|]. split; [apply unit_pairs4_ok|apply unit_pairs4_anchored].
Qed.
Example C158_example_shear : exists m l3 l4, shear_matrix (atan 1) (V 3 0 0) vzero (V 0 0 1) = Some m /\ dot (V 0 0 1) (V 3 0 0) = 0 /\ tan (atan 1) <> 0 /\
  eig3_spec (rot m) l3 /\ independent l3 /\ eig4_spec (hom_of m) l4 /\ anchored l4.
Proof.
  exists (Rigid (M (V 1 0 1) (V 0 1 0) (V 0 0 1)) vzero), [P3 1 0 (V 1 0 0) vzero; P3 1 0 (V 0 1 0) vzero; P3 1 0 (V (-1) 0 0) vzero],
    [P4 1 0 (V 1 0 0) 0 vzero 0; P4 1 0 (V 0 1 0) 0 vzero 0; P4 1 0 (V (-1) 0 0) 0 vzero 0; origin4].
  assert (N1 : Rltb (Rabs (1 - 1)) e8 = true) by (apply Rltb_true; replace (1 - 1) with 0 by ring; rewrite Rabs_R0; apply e8_pos).
  split; [|split; [unfold dot; cbn; ring|split; [rewrite atan_right_inv; lra|split; [|split; [|split]]]]].
  - unfold shear_matrix. assert (Uz : is_unit (V 0 0 1)) by (unfold is_unit, dot; cbn; ring). rewrite (unit_vector_of_unit _ Uz).
    replace (unit_vector (V 3 0 0)) with (Some (V 1 0 0)).
    2:{ unfold unit_vector, norm, dot; cbn [vx vy vz]. replace (3 * 3 + 0 * 0 + 0 * 0) with (3 * 3) by ring. rewrite sqrt_square by lra.
        destruct (Reqb_spec 3 0); [lra|]. f_equal. unfold vscale; cbn [vx vy vz]. apply vec_eq; cbn [vx vy vz]; field. }
    replace (dot (V 0 0 1) (V 1 0 0)) with 0 by (unfold dot; cbn; ring). rewrite Rabs_R0.
    replace (Rltb (/ 10 ^ 6) 0) with false by (symmetry; apply Rltb_false; left; apply Rinv_0_lt_compat, pow_lt; lra).
    cbn zeta. rewrite atan_right_inv. f_equal. f_equal; [unfold madd, mscale, outer, Vec.mid, vadd, vscale; cbn [vx vy vz r1 r2 r3]; apply mat_eq; cbn [r1 r2 r3]; apply vec_eq; cbn [vx vy vz]; ring|].
    unfold vscale, dot, vzero; cbn [vx vy vz]. apply vec_eq; cbn [vx vy vz]; ring.
  - split; [reflexivity|]. split; [|cbn [rot]; det3; ring].
    intros e [<-|[<-|[<-|[]]]]; (split; [|split; [|split]]); cbn [wre wim vre vim rot]; unv; eigen.
  - exists (P3 1 0 (V 1 0 0) vzero), (P3 1 0 (V 0 1 0) vzero). split; [now left|]. split; [now right; left|]. cbn [vre]. unfold cross, vzero; cbn [vx vy vz]. intros E. injection E as E. lra.
  - unfold origin4. split; [reflexivity|]. split; [|det4; ring].
    intros e [<-|[<-|[<-|[<-|[]]]]]; (split; [|split; [|split; [|split; [|split]]]]); cbn [ure uim are aim hre him hom_of lin col row cor rot tra]; unv; eigen.
  - intros e. unfold near4, origin4. cbn [filter ure]. rewrite N1. cbn [final rev first app]. intros E. injection E as <-. cbn. lra.
Qed.

(** ** C159: projections *)
Lemma projection_shift d n p : Rigid (msub Vec.mid (mscale (/ dot d n) (outer d n))) (vscale (dot p n / dot d n) d) = shift (- / dot d n) d n p.
Proof.
  unfold shift, dyad. f_equal.
  - destruct n as [a b c], d as [x y z]. generalize (/ dot (V x y z) (V a b c)). intros s.
    unfold msub, madd, mscale, outer, Vec.mid, vsub, vadd, vscale; cbn [vx vy vz r1 r2 r3]. apply mat_eq; cbn [r1 r2 r3]; apply vec_eq; cbn [vx vy vz]; ring.
  - rewrite (dot_comm n p). apply vec_eq; cbn [vscale vx vy vz]; unfold Rdiv; ring.
Qed.
Lemma parallel_ok eig3 eig4 d n p : is_unit n -> dot d n <> 0 -> let g := shift (- / dot d n) d n p in
  eig3_spec (rot g) (eig3 (rot g)) -> eig3_spec (mtrans (rot g)) (eig3 (mtrans (rot g))) -> eig4_spec (hom_of g) (eig4 (hom_of g)) -> anchored (eig4 (hom_of g)) ->
  exists p' n' d', projection_from_matrix eig3 eig4 (hom_of g) false = Some (p', n', Some d', None, false) /\
    projection_matrix p' n' (Some d') None false = Some (hom_of g).
Proof.
  intros U S. cbn zeta. set (k := - / dot d n). intros L3 L3t L4 A. destruct (fixed_point_ok eig4 _ L4 A) as (q & Fq & Kq).
  unfold fixed_point in Fq. destruct (final (near4 1 e8 (eig4 (hom_of (shift k d n p))))) as [e|] eqn:Fe; [|discriminate].
  unfold projection_from_matrix. rewrite Fe, Fq. cbn [hom_of lin rot shift] in *. rewrite dyad_trans in *.
  assert (Z1 : 1 + k * dot n d = 0) by (unfold k; rewrite (dot_comm n d); field; exact S).
  assert (Z2 : 1 + k * dot d n = 0) by (unfold k; field; exact S).
  destruct (near3_first _ _ 0 e8 L3 e8_pos) as (e0 & F0 & I0 & N0); [pose proof (dyad_det k d n) as DD; rewrite Z1 in DD; exact DD|].
  destruct (near3_first _ _ 0 e8 L3t e8_pos) as (e1 & F1 & I1 & N1); [pose proof (dyad_det k n d) as DD; rewrite Z2 in DD; exact DD|].
  assert (P0 : pair3_ok (dyad k d n) e0) by now apply L3. assert (P1 : pair3_ok (dyad k n d) e1) by now apply L3t.
  assert (W : forall x, Rabs (x - 0) < e8 -> x <> 1). { intros x H ->. replace (1 - 0) with 1 in H by ring. rewrite Rabs_R1 in H. unfold e8 in H. lra. }
  destruct (dyad_along _ _ _ _ P0 (W _ N0)) as (c & Ec & _). destruct (dyad_along _ _ _ _ P1 (W _ N1)) as (f & Ef & _).
  destruct (dyad_pair _ _ _ _ P0) as (_ & U0 & _). destruct (dyad_pair _ _ _ _ P1) as (_ & U1 & _).
  rewrite F0, F1, (unit_vector_of_unit _ U0), (unit_vector_of_unit _ U1). do 3 eexists. split; [reflexivity|].
  unfold projection_matrix. rewrite (unit_vector_of_unit _ U1).
  assert (C0 : c <> 0). { intros ->. unfold is_unit in U0. rewrite Ec, dot_scale_l in U0. lra. }
  assert (F0' : f <> 0). { intros ->. unfold is_unit in U1. rewrite Ef, dot_scale_l in U1. lra. }
  assert (D : dot (vre e0) (vre e1) = c * (f * dot d n)) by (rewrite Ec, Ef, dot_scale_l, dot_scale_r; reflexivity).
  assert (Dn : dot (vre e0) (vre e1) <> 0) by (rewrite D; repeat apply Rmult_integral_contrapositive_currified; assumption).
  destruct (Reqb_spec (dot (vre e0) (vre e1)) 0); [contradiction|]. f_equal. rewrite projection_shift. fold (shift k d n p).
  replace (hom_of (shift k d n p)) with (hom_of (shift k d n q)) by (f_equal; symmetry; now apply shift_point). unfold hom_of at 2. fold (hom_of (shift k d n q)). 
  rewrite D, Ec, Ef. rewrite (shift_scaled k); [reflexivity|]. unfold k. field. repeat split; assumption.
Qed.
Theorem C159_parallel : forall eig3 eig4 point normal direction m, projection_matrix point normal direction None false = Some m ->
  eig3_spec (lin m) (eig3 (lin m)) -> eig3_spec (mtrans (lin m)) (eig3 (mtrans (lin m))) -> eig4_spec m (eig4 m) -> anchored (eig4 m) ->
  exists point' normal' direction', projection_from_matrix eig3 eig4 m false = Some (point', normal', Some direction', None, false) /\
    projection_matrix point' normal' (Some direction') None false = Some m.
Proof.
  intros eig3 eig4 point normal direction m H. unfold projection_matrix in H. destruct (unit_vector normal) as [n|] eqn:En; [|discriminate].
  destruct (unit_vector_unit _ _ En) as [U _]. destruct direction as [d|].
  - destruct (Reqb_spec (dot d n) 0) as [|S]; [discriminate|]. rewrite projection_shift in H. injection H as <-. now apply parallel_ok.
  - assert (E : Rigid (msub Vec.mid (outer n n)) (vscale (dot point n) n) = shift (- / dot n n) n n point).
    { rewrite <- projection_shift. unfold is_unit in U. rewrite U. f_equal; [|apply vec_eq; cbn [vscale vx vy vz]; field].
      destruct n as [a b c]. unfold msub, mscale, outer, Vec.mid, vsub, vscale; cbn [vx vy vz r1 r2 r3]. apply mat_eq; cbn [r1 r2 r3]; apply vec_eq; cbn [vx vy vz]; field. }
    rewrite E in H. injection H as <-. apply parallel_ok; [exact U|]. unfold is_unit in U. rewrite U. lra.
Qed.
Print Assumptions C159_parallel.

(** *** Perspective projections: k is the distance of the perspective point from the plane n.x = D, r the perspective point,
    with the normal added (j = 1) if relative depth is to be preserved *)
Definition central (k D : R) (r n : vec) (q : R) : hom := Hom (msub (mscale k Vec.mid) (outer r n)) (vscale D r) (vneg n) q.
Lemma central_vec k r n x : mvec (msub (mscale k Vec.mid) (outer r n)) x = vsub (vscale k x) (vscale (dot n x) r).
Proof. destruct r as [a b c], n as [d e f], x as [x1 x2 x3]. unfold mvec, msub, mscale, outer, Vec.mid, vsub, vscale, dot; cbn [vx vy vz r1 r2 r3]. apply vec_eq; cbn [vx vy vz]; ring. Qed.
Lemma central_pair k D j r n e : dot n r = k + D + j -> pair4_ok (central k D r n (k + D)) e ->
  ure e = - j \/ (ure e = k /\ uim e = 0 /\ dot n (are e) = D * hre e).
Proof.
  intros Hr (A & B & C & E & N & _). cbn [central lin col row cor] in *. rewrite central_vec in A, C. rewrite dot_neg_l in B, E.
  set (x := are e) in *. set (y := aim e) in *. set (a := ure e) in *. set (b := uim e) in *. set (h := hre e) in *. set (g := him e) in *.
  set (L := dot n x - D * h). set (K := dot n y - D * g).
  pose proof (f_equal (dot n) A) as An. pose proof (f_equal (dot n) C) as Cn.
  rewrite dot_add_r, dot_sub_r, !dot_scale_r, Hr, dot_sub_r, !dot_scale_r in An. rewrite dot_add_r, dot_sub_r, !dot_scale_r, Hr, dot_add_r, !dot_scale_r in Cn.
  assert (E1 : (a + j) * L = b * K).
  { apply Rminus_diag_uniq. transitivity ((a * dot n x - b * dot n y - (k * dot n x - dot n x * (k + D + j) + h * (D * (k + D + j)))) - D * (a * h - b * g - (- dot n x + (k + D) * h)));
    [unfold L, K; ring|]. rewrite <- An, <- B. ring. }
  assert (E2 : (a + j) * K = - (b * L)).
  { apply Rminus_diag_uniq. transitivity ((b * dot n x + a * dot n y - (k * dot n y - dot n y * (k + D + j) + g * (D * (k + D + j)))) - D * (b * h + a * g - (- dot n y + (k + D) * g)));
    [unfold L, K; ring|]. rewrite <- Cn, <- E. ring. }
  assert (Z : (a + j) * (L * L + K * K) = 0).
  { transitivity ((a + j) * L * L + (a + j) * K * K); [ring|]. rewrite E1, E2. ring. }
  apply Rmult_integral in Z. destruct Z as [Z|Z]; [left; lra|right].
  assert (L0 : L = 0) by nra. assert (K0 : K = 0) by nra.
  assert (Nx : dot n x = D * h) by (unfold L in L0; lra). assert (Ny : dot n y = D * g) by (unfold K in K0; lra).
  assert (A' : vscale k x = vsub (vscale a x) (vscale b y)).
  { rewrite <- A, Nx. apply vec_eq; cbn [vadd vsub vscale vx vy vz]; ring. }
  assert (C' : vscale k y = vadd (vscale b x) (vscale a y)).
  { rewrite <- C, Ny. apply vec_eq; cbn [vadd vsub vscale vx vy vz]; ring. }
  rewrite Nx in B. rewrite Ny in E. clear An Cn A C E1 E2 L0 K0 Z. clearbody x y a b h g.
  assert (B' : k * h = a * h - b * g) by lra. assert (E' : k * g = b * h + a * g) by lra.
  pose proof (f_equal (dot x) A') as Ax. pose proof (f_equal (dot y) C') as Cy. pose proof (f_equal (dot y) A') as Ay. pose proof (f_equal (dot x) C') as Cx.
  rewrite dot_sub_r, !dot_scale_r in Ax, Ay. rewrite dot_add_r, !dot_scale_r in Cy, Cx. rewrite (dot_comm y x) in Cy, Ay.
  assert (Bh : k * (h * h) = a * (h * h) - b * (h * g)) by (transitivity (k * h * h); [ring|rewrite B'; ring]).
  assert (Eg : k * (g * g) = b * (h * g) + a * (g * g)) by (transitivity (k * g * g); [ring|rewrite E'; ring]).
  assert (Bg : k * (h * g) = a * (h * g) - b * (g * g)) by (transitivity (k * h * g); [ring|rewrite B'; ring]).
  assert (Eh : k * (h * g) = b * (h * h) + a * (h * g)) by (transitivity (k * g * h); [ring|rewrite E'; ring]).
  assert (F1 : (a - k) * (dot x x + h * h + (dot y y + g * g)) = 0) by lra.
  assert (F2 : b * (dot x x + h * h + (dot y y + g * g)) = 0) by lra.
  rewrite N in F1, F2. repeat split; [lra|lra|exact Nx].
Qed.
Lemma central_det k D r n q : hdet (hsub (hscale k hid) (central k D r n q)) = 0.
Proof.
  unfold central, hdet, hsub, hscale, hid. cbn [lin col row cor].
  replace (msub (mscale k Vec.mid) (msub (mscale k Vec.mid) (outer r n))) with (outer r n).
  2:{ destruct r as [a b c], n as [d e f]. unfold msub, mscale, outer, Vec.mid, vsub, vscale; cbn [vx vy vz r1 r2 r3]. apply mat_eq; cbn [r1 r2 r3]; apply vec_eq; cbn [vx vy vz]; ring. }
  assert (C : forall s t, cross (vscale s n) (vscale t n) = vzero) by (intros s t; apply vec_eq; vsimp; ring).
  unfold outer, mdet; cbn [r1 r2 r3]. rewrite !C.
  assert (Z : forall v, dot v vzero = 0) by (intros v; unfold dot, vzero; cbn [vx vy vz]; ring).
  assert (S : forall s, vscale s vzero = vzero) by (intros s; apply vec_eq; cbn [vscale vzero vx vy vz]; ring).
  assert (P : vadd vzero vzero = vzero) by (apply vec_eq; cbn [vadd vzero vx vy vz]; ring). rewrite !S, !P, !Z. ring.
Qed.
Definition off_zero (l : list pair4) : list pair4 := filter (fun e => Rltb e8 (Rabs (ure e))) l.
Definition anchored_off_zero (l : list pair4) : Prop := forall e, final (off_zero l) = Some e -> hre e <> 0.

Lemma central_found k D j r n l : dot n r = k + D + j -> / 10 ^ 8 < Rabs k -> eig4_spec (central k D r n (k + D)) l -> anchored_off_zero l ->
  (forall e, final (off_zero l) = Some e -> ure e <> - j) ->
  exists e p, final (off_zero l) = Some e /\ dehom e = Some p /\ dot n p = D.
Proof.
  intros Hr Hk L A J. destruct (spectrum4 _ _ k L (central_det k D r n (k + D))) as (e & I & E & _).
  destruct (final_some (off_zero l) e) as (e' & F). { apply filter_In. split; [exact I|]. apply Rltb_true. rewrite E. exact Hk. }
  exists e'. unfold dehom. pose proof (A e' F) as N. destruct (Reqb_spec (hre e') 0); [contradiction|]. eexists. split; [exact F|]. split; [reflexivity|].
  assert (P : pair4_ok (central k D r n (k + D)) e') by (apply L; apply final_in in F; now apply filter_In in F).
  destruct (central_pair k D j r n e' Hr P) as [X|(_ & _ & X)]; [now apply J in F|].
  rewrite dot_scale_r, X. field. exact N.
Qed.

Theorem C159_perspective_partial : forall eig3 eig4 point normal n direction q m, unit_vector normal = Some n ->
  projection_matrix point normal direction (Some q) false = Some m ->
  / 10 ^ 8 < Rabs (dot (vsub q point) n) -> / 10 ^ 8 <= Rabs (dot (vsub q point) n - 1) -> dot point n <> 0 ->
  eig4_spec m (eig4 m) -> anchored_off_zero (eig4 m) ->
  exists point', projection_from_matrix eig3 eig4 m false = Some (point', n, None, Some q, false) /\
    projection_matrix point' n None (Some q) false = Some m.
Proof.
  intros eig3 eig4 point normal n direction q m En H K1 K2 D0 L A. unfold projection_matrix in H. rewrite En in H. injection H as H.
  destruct (unit_vector_unit _ _ En) as [U _]. set (k := dot (vsub q point) n) in *. set (D := dot point n) in *.
  assert (Q : dot q n = k + D) by (unfold k, D; rewrite dot_sub_l; ring). rewrite Q in H. fold (central k D q n (k + D)) in H. subst m.
  assert (Hr : dot n q = k + D + 0) by (rewrite dot_comm, Q; ring). pose proof e8_pos as E8. fold e8 in K1, K2.
  destruct (central_found k D 0 q n _ Hr K1 L A) as (e & p & F & Fp & Dp).
  { intros e F E. apply final_in in F. apply filter_In in F. destruct F as [_ F]. apply Rltb_true in F. rewrite E, Ropp_0, Rabs_R0 in F. lra. }
  assert (F1 : final (near4 1 e8 (eig4 (central k D q n (k + D)))) = None).
  { destruct (final (near4 1 e8 (eig4 (central k D q n (k + D))))) as [e1|] eqn:G; [exfalso|reflexivity]. apply final_in, near4_in in G. destruct G as [I G].
    assert (P : pair4_ok (central k D q n (k + D)) e1) by now apply L.
    destruct (central_pair k D 0 q n e1 Hr P) as [X|(X & _)]; rewrite X in G; [|lra].
    replace (- 0 - 1) with (-1) in G by ring. rewrite Rabs_left in G by lra. unfold e8 in G. lra. }
  exists p. unfold projection_from_matrix. rewrite F1. unfold off_zero in F. rewrite F, Fp. cbn [central row col].
  replace (vneg (vneg n)) with n by (apply vec_eq; cbn [vneg vx vy vz]; ring). rewrite (dot_comm p n), Dp.
  destruct (Reqb_spec D 0); [contradiction|]. replace (vscale (/ D) (vscale D q)) with q by (apply vec_eq; cbn [vscale vx vy vz]; field; exact D0).
  split; [reflexivity|]. unfold projection_matrix. rewrite (unit_vector_of_unit _ U).
  replace (dot (vsub q p) n) with k by (rewrite dot_sub_l, Q, (dot_comm p n), Dp; ring). rewrite (dot_comm p n), Dp, Q. reflexivity.
Qed.
Print Assumptions C159_perspective_partial.

(** With pseudo=True, provided the column chosen is not the one with the eigenvalue -1. *)
Theorem C159_pseudo_partial : forall eig3 eig4 point normal n direction q m, unit_vector normal = Some n ->
  projection_matrix point normal direction (Some q) true = Some m ->
  / 10 ^ 8 < Rabs (dot (vsub q point) n) -> dot point n <> 0 ->
  eig4_spec m (eig4 m) -> anchored_off_zero (eig4 m) -> (forall e, final (off_zero (eig4 m)) = Some e -> ure e <> -1) ->
  exists point', projection_from_matrix eig3 eig4 m true = Some (point', n, None, Some q, true) /\
    projection_matrix point' n None (Some q) true = Some m.
Proof.
  intros eig3 eig4 point normal n direction q m En H K1 D0 L A J. unfold projection_matrix in H. rewrite En in H. injection H as H.
  destruct (unit_vector_unit _ _ En) as [U _]. set (k := dot (vsub q point) n) in *. set (D := dot point n) in *.
  assert (Q : dot q n = k + D) by (unfold k, D; rewrite dot_sub_l; ring).
  assert (Mm : forall k, msub (msub (mscale k Vec.mid) (outer q n)) (outer n n) = msub (mscale k Vec.mid) (outer (vadd q n) n)).
  { intros k0. destruct q as [a b c], n as [d e f]. unfold msub, mscale, outer, Vec.mid, vadd, vsub, vscale; cbn [vx vy vz r1 r2 r3]. apply mat_eq; cbn [r1 r2 r3]; apply vec_eq; cbn [vx vy vz]; ring. }
  rewrite Mm, Q in H. fold (central k D (vadd q n) n (k + D)) in H. subst m.
  assert (Hr : dot n (vadd q n) = k + D + 1) by (rewrite dot_add_r, (dot_comm n q), Q; unfold is_unit in U; rewrite U; ring).
  destruct (central_found k D 1 (vadd q n) n _ Hr K1 L A) as (e & p & F & Fp & Dp).
  { intros e F. replace (- (1)) with (-1) by ring. now apply J. }
  exists p. unfold projection_from_matrix. unfold off_zero in F. rewrite F, Fp. cbn [central row col].
  replace (vneg (vneg n)) with n by (apply vec_eq; cbn [vneg vx vy vz]; ring). rewrite (dot_comm p n), Dp.
  destruct (Reqb_spec D 0); [contradiction|].
  replace (vsub (vscale (/ D) (vscale D (vadd q n))) n) with q by (apply vec_eq; cbn [vadd vsub vscale vx vy vz]; field; exact D0).
  split; [reflexivity|]. unfold projection_matrix. rewrite (unit_vector_of_unit _ U), Mm.
  replace (dot (vsub q p) n) with k by (rewrite dot_sub_l, Q, (dot_comm p n), Dp; ring). rewrite (dot_comm p n), Dp, Q. reflexivity.
Qed.
Print Assumptions C159_pseudo_partial.

(** *** Where it fails *)
Definition axial (a b c d : R) : hom := Hom (M (V a 0 0) (V 0 a 0) (V 0 0 b)) (V 0 0 c) (V 0 0 (-1)) d.
Lemma axial_central point q pseudo : projection_matrix (V 0 0 point) (V 0 0 1) None (Some (V 0 0 q)) pseudo =
  Some (axial (q - point) (- point - if pseudo then 1 else 0) (point * (q + if pseudo then 1 else 0)) q).
Proof.
  unfold projection_matrix. assert (U : is_unit (V 0 0 1)) by (unfold is_unit, dot; cbn; ring). rewrite (unit_vector_of_unit _ U).
  unfold axial, msub, mscale, outer, Vec.mid, vadd, vsub, vneg, vscale, dot; cbn [vx vy vz r1 r2 r3].
  destruct pseudo; f_equal; f_equal; try (apply mat_eq; cbn [r1 r2 r3]); try (apply vec_eq; cbn [vx vy vz]); ring.
Qed.
Definition plain4 (w : R) (v : vec) (h : R) : pair4 := P4 w 0 v h vzero 0.
Lemma axial_pairs a b c d w1 w2 z1 h1 z2 h2 : w1 + w2 = b + d -> w1 * w2 = b * d + c ->
  b * z1 + c * h1 = w1 * z1 -> - z1 + d * h1 = w1 * h1 -> z1 * z1 + h1 * h1 = 1 ->
  b * z2 + c * h2 = w2 * z2 -> - z2 + d * h2 = w2 * h2 -> z2 * z2 + h2 * h2 = 1 ->
  eig4_spec (axial a b c d) [plain4 a (V 1 0 0) 0; plain4 a (V 0 1 0) 0; plain4 w1 (V 0 0 z1) h1; plain4 w2 (V 0 0 z2) h2].
Proof.
  intros T D A1 A2 A3 B1 B2 B3. split; [reflexivity|]. split.
  - unfold plain4, axial.
    intros e [<-|[<-|[<-|[<-|[]]]]]; (split; [|split; [|split; [|split; [|split]]]]); cbn [ure uim are aim hre him lin col row cor]; unv;
      first [solve [apply vec_eq; cbn [vx vy vz]; lra] | lra | intros _; split; reflexivity].
  - intros x. replace (hsub (hscale x hid) (axial a b c d)) with (Hom (M (V (x - a) 0 0) (V 0 (x - a) 0) (V 0 0 (x - b))) (V 0 0 (- c)) (V 0 0 1) (x - d)).
    2:{ unfold hsub, hscale, hid, axial, msub, mscale, Vec.mid, vsub, vscale, vzero; cbn [lin col row cor vx vy vz r1 r2 r3].
        f_equal; try (apply mat_eq; cbn [r1 r2 r3]); try (apply vec_eq; cbn [vx vy vz]); ring. }
    unfold hdet, mdet, cross, vadd, vscale, dot; cbn [lin col row cor vx vy vz r1 r2 r3 map prod ure uim plain4].
    transitivity (((x - a) * (x - a) * (x * x - (b + d) * x + (b * d + c))) ^ 2); [ring|]. rewrite <- T, <- D. ring.
Qed.
Lemma root_inv x : 0 < x -> / sqrt x * / sqrt x = / x.
Proof. intros H. rewrite <- Rinv_mult, sqrt_sqrt by lra. reflexivity. Qed.
Definition diag3 (a b : R) : list pair3 := [P3 a 0 (V 1 0 0) vzero; P3 a 0 (V 0 1 0) vzero; P3 b 0 (V 0 0 1) vzero].
Lemma diag3_ok a b : eig3_spec (M (V a 0 0) (V 0 a 0) (V 0 0 b)) (diag3 a b).
Proof.
  split; [reflexivity|]. unfold diag3. split.
  - intros e [<-|[<-|[<-|[]]]]; (split; [|split; [|split]]); cbn [wre wim vre vim]; unv; eigen.
  - det3. ring.
Qed.

(** A perspective point at distance 1 from the plane: the matrix is taken for a parallel projection and no direction is found. *)
Theorem C159_distance_one_refuted : exists point normal q m, projection_matrix point normal None (Some q) false = Some m /\
  (exists l3 l4, eig3_spec (lin m) l3 /\ eig4_spec m l4) /\
  forall eig3 eig4, eig3_spec (lin m) (eig3 (lin m)) -> eig4_spec m (eig4 m) -> projection_from_matrix eig3 eig4 m false = None.
Proof.
  exists (V 0 0 1), (V 0 0 1), (V 0 0 2), (axial 1 (-1) 2 2). split.
  { rewrite axial_central. f_equal. f_equal; ring. }
  split.
  { exists (diag3 1 (-1)). pose proof (root_inv 2 ltac:(lra)) as R2. pose proof (root_inv 5 ltac:(lra)) as R5.
    eexists. split; [apply diag3_ok|]. apply (axial_pairs 1 (-1) 2 2 1 0 (/ sqrt 2) (/ sqrt 2) (2 * / sqrt 5) (/ sqrt 5)); lra. }
  intros eig3 eig4 L3 L4. unfold projection_from_matrix. cbn [axial lin] in *.
  assert (D : hdet (hsub (hscale 1 hid) (axial 1 (-1) 2 2)) = 0).
  { replace (axial 1 (-1) 2 2) with (central 1 1 (V 0 0 2) (V 0 0 1) 2); [apply central_det|].
    unfold axial, central, msub, mscale, outer, Vec.mid, vsub, vscale, vneg; cbn [vx vy vz r1 r2 r3]. f_equal; try (apply mat_eq; cbn [r1 r2 r3]); try (apply vec_eq; cbn [vx vy vz]); ring. }
  destruct (spectrum4 _ _ 1 L4 D) as (e & I & E & _).
  destruct (final_some (near4 1 e8 (eig4 (axial 1 (-1) 2 2))) e) as (e' & F).
  { apply near4_in. split; [exact I|]. rewrite E. replace (1 - 1) with 0 by ring. rewrite Rabs_R0. apply e8_pos. }
  fold (axial 1 (-1) 2 2). rewrite F. destruct (dehom e'); [|reflexivity].
  destruct (first (near3 0 e8 (eig3 (M (V 1 0 0) (V 0 1 0) (V 0 0 (-1)))))) as [e0|] eqn:G; [exfalso|reflexivity].
  apply first_in, near3_in in G. destruct G as [I0 G].
  assert (P : pair3_ok (dyad (-2) (V 0 0 1) (V 0 0 1)) e0).
  { replace (dyad (-2) (V 0 0 1) (V 0 0 1)) with (M (V 1 0 0) (V 0 1 0) (V 0 0 (-1))); [now apply L3|].
    unfold dyad, madd, mscale, outer, Vec.mid, vadd, vscale; cbn [vx vy vz r1 r2 r3]. apply mat_eq; cbn [r1 r2 r3]; apply vec_eq; cbn [vx vy vz]; ring. }
  destruct (dyad_pair _ _ _ _ P) as (_ & Ue & K). destruct (vre e0) as [x y z]. unfold is_unit, dot, vscale in *; cbn [vx vy vz] in *. injection K as K1 K2 K3.
  unfold e8 in G. rewrite Rminus_0_r in G. assert (B : - (1 / 2) < wre e0 < 1 / 2) by (apply Rabs_def2 in G; lra).
  assert (x = 0) by nra. assert (y = 0) by nra. assert (z = 0) by nra. subst. lra.
Qed.
Print Assumptions C159_distance_one_refuted.

(** A plane through the origin: the perspective point is found as 0/0. *)
Theorem C159_origin_refuted : exists point normal q m, projection_matrix point normal None (Some q) false = Some m /\
  (exists l4, eig4_spec m l4 /\ anchored_off_zero l4) /\
  forall eig3 eig4, eig4_spec m (eig4 m) -> projection_from_matrix eig3 eig4 m false = None.
Proof.
  exists (V 0 0 0), (V 0 0 1), (V 0 0 2), (axial 2 0 0 2). split.
  { rewrite axial_central. f_equal. f_equal; ring. }
  split.
  { pose proof (root_inv 5 ltac:(lra)) as R5. exists [plain4 2 (V 1 0 0) 0; plain4 2 (V 0 1 0) 0; plain4 0 (V 0 0 (2 * / sqrt 5)) (/ sqrt 5); plain4 2 (V 0 0 0) 1].
    split; [apply (axial_pairs 2 0 0 2 0 2 (2 * / sqrt 5) (/ sqrt 5) 0 1); lra|].
    intros e. unfold off_zero. cbn [filter plain4 ure].
    replace (Rltb e8 (Rabs 2)) with true by (symmetry; apply Rltb_true; unfold e8; rewrite Rabs_right; lra).
    destruct (Rltb e8 (Rabs 0)); cbn [final rev first app]; intros E; injection E as <-; cbn; lra. }
  intros eig3 eig4 L4. unfold projection_from_matrix.
  assert (C : axial 2 0 0 2 = central 2 0 (V 0 0 2) (V 0 0 1) (2 + 0)).
  { unfold axial, central, msub, mscale, outer, Vec.mid, vsub, vscale, vneg; cbn [vx vy vz r1 r2 r3]. f_equal; try (apply mat_eq; cbn [r1 r2 r3]); try (apply vec_eq; cbn [vx vy vz]); ring. }
  assert (Hr : dot (V 0 0 1) (V 0 0 2) = 2 + 0 + 0) by (unfold dot; cbn [vx vy vz]; ring).
  assert (P : forall e, In e (eig4 (axial 2 0 0 2)) -> ure e = - 0 \/ (ure e = 2 /\ uim e = 0 /\ dot (V 0 0 1) (are e) = 0 * hre e)).
  { intros e I. apply (central_pair 2 0 0 (V 0 0 2) (V 0 0 1) e Hr). rewrite <- C. now apply L4. }
  assert (F1 : final (near4 1 e8 (eig4 (axial 2 0 0 2))) = None).
  { destruct (final (near4 1 e8 (eig4 (axial 2 0 0 2)))) as [e|] eqn:G; [exfalso|reflexivity]. apply final_in, near4_in in G. destruct G as [I G]. apply Rabs_def2 in G. unfold e8 in G.
    destruct (P e I) as [X|(X & _)]; rewrite X in G; lra. }
  rewrite F1. destruct (final (filter _ _)) as [e|] eqn:G; [|reflexivity]. apply final_in, filter_In in G. destruct G as [I G]. apply Rltb_true in G.
  unfold dehom. destruct (Reqb_spec (hre e) 0); [reflexivity|]. cbn [axial row].
  destruct (P e I) as [X|(_ & _ & X)]; [rewrite X, Ropp_0, Rabs_R0 in G; pose proof e8_pos; lra|].
  replace (dot (vscale (/ hre e) (are e)) (vneg (V 0 0 (-1)))) with 0; [destruct (Reqb_spec 0 0); [reflexivity|lra]|].
  rewrite dot_scale_l. replace (vneg (V 0 0 (-1))) with (V 0 0 1) by (apply vec_eq; cbn [vneg vx vy vz]; ring). rewrite dot_comm, X. ring.
Qed.
Print Assumptions C159_origin_refuted.

(** With pseudo=True another perspective point is found if the column of the eigenvalue -1 comes last. *)
Theorem C159_pseudo_refuted : exists eig3 eig4 point normal q m point' q', projection_matrix point normal None (Some q) true = Some m /\
  eig4_spec m (eig4 m) /\ anchored_off_zero (eig4 m) /\
  projection_from_matrix eig3 eig4 m true = Some (point', normal, None, Some q', true) /\ projection_matrix point' normal None (Some q') true <> Some m.
Proof.
  pose proof (root_inv 2 ltac:(lra)) as R2. pose proof (root_inv 17 ltac:(lra)) as R17.
  assert (Z : / sqrt 17 <> 0) by (intros E; rewrite E in R17; lra).
  set (l := [plain4 2 (V 1 0 0) 0; plain4 2 (V 0 1 0) 0; plain4 2 (V 0 0 (/ sqrt 2)) (/ sqrt 2); plain4 (-1) (V 0 0 (4 * / sqrt 17)) (/ sqrt 17)]).
  assert (F : final (off_zero l) = Some (plain4 (-1) (V 0 0 (4 * / sqrt 17)) (/ sqrt 17))).
  { unfold l, off_zero. cbn [filter plain4 ure].
    replace (Rltb e8 (Rabs 2)) with true by (symmetry; apply Rltb_true; unfold e8; rewrite Rabs_right; lra).
    replace (Rltb e8 (Rabs (-1))) with true by (symmetry; apply Rltb_true; unfold e8; rewrite Rabs_left; lra). reflexivity. }
  exists (fun _ => []), (fun _ => l), (V 0 0 1), (V 0 0 1), (V 0 0 3), (axial 2 (-2) 4 3), (V 0 0 4), (V 0 0 0). split.
  { rewrite axial_central. f_equal. f_equal; ring. }
  split; [apply (axial_pairs 2 (-2) 4 3 2 (-1) (/ sqrt 2) (/ sqrt 2) (4 * / sqrt 17) (/ sqrt 17)); lra|].
  split; [intros e; rewrite F; intros E; injection E as <-; exact Z|]. split.
  - unfold projection_from_matrix. unfold off_zero in F. rewrite F. unfold dehom; cbn [plain4 hre are axial row col].
    destruct (Reqb_spec (/ sqrt 17) 0); [contradiction|].
    replace (vscale (/ / sqrt 17) (V 0 0 (4 * / sqrt 17))) with (V 0 0 4) by (unfold vscale; cbn [vx vy vz]; apply vec_eq; cbn [vx vy vz]; field; apply Rgt_not_eq, sqrt_lt_R0; lra).
    replace (vneg (V 0 0 (-1))) with (V 0 0 1) by (apply vec_eq; cbn [vneg vx vy vz]; ring).
    replace (dot (V 0 0 4) (V 0 0 1)) with 4 by (unfold dot; cbn [vx vy vz]; ring). destruct (Reqb_spec 4 0); [lra|].
    replace (vsub (vscale (/ 4) (V 0 0 4)) (V 0 0 1)) with (V 0 0 0) by (apply vec_eq; cbn [vsub vscale vx vy vz]; field). reflexivity.
  - rewrite axial_central. intros E. apply (f_equal (fun o => match o with Some m => cor m | None => 3 end)) in E. cbn [axial cor] in E. lra.
Qed.
Print Assumptions C159_pseudo_refuted.

(** The plane z = 1 seen from (0, 0, 3): the conditions of the perspective theorem hold, with a list in a good order
    for both kinds of matrices. *)
Example C159_example : exists m m' l l', projection_matrix (V 0 0 1) (V 0 0 1) None (Some (V 0 0 3)) false = Some m /\
  projection_matrix (V 0 0 1) (V 0 0 1) None (Some (V 0 0 3)) true = Some m' /\
  / 10 ^ 8 < Rabs (dot (vsub (V 0 0 3) (V 0 0 1)) (V 0 0 1)) /\ / 10 ^ 8 <= Rabs (dot (vsub (V 0 0 3) (V 0 0 1)) (V 0 0 1) - 1) /\ dot (V 0 0 1) (V 0 0 1) <> 0 /\
  eig4_spec m l /\ anchored_off_zero l /\ eig4_spec m' l' /\ anchored_off_zero l' /\ (forall e, final (off_zero l') = Some e -> ure e <> -1).
Proof.
  pose proof (root_inv 2 ltac:(lra)) as R2. pose proof (root_inv 10 ltac:(lra)) as R10. pose proof (root_inv 17 ltac:(lra)) as R17.
  assert (Z : / sqrt 2 <> 0) by (intros E; rewrite E in R2; lra).
  assert (N2 : Rltb e8 (Rabs 2) = true) by (apply Rltb_true; unfold e8; rewrite Rabs_right; lra).
  assert (Dk : dot (vsub (V 0 0 3) (V 0 0 1)) (V 0 0 1) = 2) by (unfold dot, vsub; cbn [vx vy vz]; ring). rewrite Dk.
  exists (axial 2 (-1) 3 3), (axial 2 (-2) 4 3),
    [plain4 2 (V 1 0 0) 0; plain4 2 (V 0 1 0) 0; plain4 0 (V 0 0 (3 * / sqrt 10)) (/ sqrt 10); plain4 2 (V 0 0 (/ sqrt 2)) (/ sqrt 2)],
    [plain4 2 (V 1 0 0) 0; plain4 2 (V 0 1 0) 0; plain4 (-1) (V 0 0 (4 * / sqrt 17)) (/ sqrt 17); plain4 2 (V 0 0 (/ sqrt 2)) (/ sqrt 2)].
  split; [rewrite axial_central; f_equal; f_equal; ring|]. split; [rewrite axial_central; f_equal; f_equal; ring|].
  split; [rewrite Rabs_right; lra|]. split; [rewrite Rabs_right; lra|]. split; [unfold dot; cbn [vx vy vz]; lra|].
  split; [apply (axial_pairs 2 (-1) 3 3 0 2 (3 * / sqrt 10) (/ sqrt 10) (/ sqrt 2) (/ sqrt 2)); lra|].
  split. { intros e. unfold off_zero. cbn [filter plain4 ure]. rewrite N2. destruct (Rltb e8 (Rabs 0)); cbn [final rev first app]; intros E; injection E as <-; exact Z. }
  split; [apply (axial_pairs 2 (-2) 4 3 (-1) 2 (4 * / sqrt 17) (/ sqrt 17) (/ sqrt 2) (/ sqrt 2)); lra|].
  split; intros e; unfold off_zero; cbn [filter plain4 ure]; rewrite N2; destruct (Rltb e8 (Rabs (-1))); cbn [final rev first app]; intros E; injection E as <-; try exact Z; cbn [ure plain4]; lra.
Qed.
(** The orthogonal projection onto z = 0. *)
Example C159_example_parallel : exists m, projection_matrix vzero (V 0 0 1) None None false = Some m /\
  eig3_spec (lin m) (diag3 1 0) /\ eig3_spec (mtrans (lin m)) (diag3 1 0) /\
  exists l4, eig4_spec m l4 /\ anchored l4.
Proof.
  exists (hom_of (Rigid (M (V 1 0 0) (V 0 1 0) (V 0 0 0)) vzero)). split.
  { unfold projection_matrix. assert (U : is_unit (V 0 0 1)) by (unfold is_unit, dot; cbn; ring). rewrite (unit_vector_of_unit _ U).
    f_equal. f_equal. unfold msub, outer, Vec.mid, vsub, vscale, dot, vzero; cbn [vx vy vz r1 r2 r3].
    f_equal; try (apply mat_eq; cbn [r1 r2 r3]); apply vec_eq; cbn [vx vy vz]; ring. }
  split; [apply diag3_ok|]. split; [apply diag3_ok|].
  exists [P4 1 0 (V 1 0 0) 0 vzero 0; P4 1 0 (V 0 1 0) 0 vzero 0; P4 0 0 (V 0 0 1) 0 vzero 0; origin4]. split.
  - unfold origin4. split; [reflexivity|]. split; [|det4; ring].
    intros e [<-|[<-|[<-|[<-|[]]]]]; (split; [|split; [|split; [|split; [|split]]]]); cbn [ure uim are aim hre him hom_of lin col row cor rot tra]; unv; eigen.
  - intros e. unfold near4, origin4. cbn [filter ure].
    replace (Rltb (Rabs (1 - 1)) e8) with true by (symmetry; apply Rltb_true; replace (1 - 1) with 0 by ring; rewrite Rabs_R0; apply e8_pos).
    destruct (Rltb _ _); cbn [final rev first app]; intros E; injection E as <-; cbn; lra.
Qed.
