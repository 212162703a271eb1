(** Three-vectors, 3x3 matrices and rigid motions over the reals.
    The numpy vector arithmetic used throughout pvtrace ([np.dot],
    [np.linalg.norm], 4x4 homogeneous matrices with last row 0 0 0 1). *)
From Coq Require Import Reals Lra Psatz.
From Verif Require Import Base.
Open Scope R_scope.

Record vec := V { vx : R; vy : R; vz : R }.

Definition vadd a b := V (vx a + vx b) (vy a + vy b) (vz a + vz b).
Definition vsub a b := V (vx a - vx b) (vy a - vy b) (vz a - vz b).
Definition vscale k a := V (k * vx a) (k * vy a) (k * vz a).
Definition vneg a := V (- vx a) (- vy a) (- vz a).
Definition vzero := V 0 0 0.
Definition dot a b := vx a * vx b + vy a * vy b + vz a * vz b.
Definition cross a b :=
  V (vy a * vz b - vz a * vy b) (vz a * vx b - vx a * vz b) (vx a * vy b - vy a * vx b).
(** np.linalg.norm *)
Definition norm a := sqrt (dot a a).
(** geometry/utils.py 425-428 distance_between *)
Definition distance_between a b := norm (vsub a b).
Definition is_unit a := dot a a = 1.

Lemma vec_eq a b : vx a = vx b -> vy a = vy b -> vz a = vz b -> a = b.
Proof. destruct a, b; simpl; intros; subst; reflexivity. Qed.

Ltac vsimp := unfold vadd, vsub, vscale, vneg, vzero, dot, cross in *; simpl in *.
Ltac veq := apply vec_eq; vsimp; try ring; try lra.

Lemma dot_comm a b : dot a b = dot b a.
Proof. vsimp; ring. Qed.
Lemma dot_self_nonneg a : 0 <= dot a a.
Proof. vsimp; nra. Qed.
Lemma dot_add_l a b c : dot (vadd a b) c = dot a c + dot b c.
Proof. vsimp; ring. Qed.
Lemma dot_sub_l a b c : dot (vsub a b) c = dot a c - dot b c.
Proof. vsimp; ring. Qed.
Lemma dot_scale_l k a b : dot (vscale k a) b = k * dot a b.
Proof. vsimp; ring. Qed.
Lemma dot_add_r a b c : dot c (vadd a b) = dot c a + dot c b.
Proof. vsimp; ring. Qed.
Lemma dot_sub_r a b c : dot c (vsub a b) = dot c a - dot c b.
Proof. vsimp; ring. Qed.
Lemma dot_scale_r k a b : dot b (vscale k a) = k * dot b a.
Proof. vsimp; ring. Qed.
Lemma dot_neg_l a b : dot (vneg a) b = - dot a b.
Proof. vsimp; ring. Qed.
Lemma dot_neg_r a b : dot a (vneg b) = - dot a b.
Proof. vsimp; ring. Qed.

Lemma norm_nonneg a : 0 <= norm a.
Proof. apply sqrt_pos. Qed.
Lemma norm_sq a : norm a * norm a = dot a a.
Proof. apply sqrt_sqrt, dot_self_nonneg. Qed.
Lemma norm_unit a : is_unit a -> norm a = 1.
Proof. unfold norm, is_unit. intros ->. apply sqrt_1. Qed.
Lemma norm_scale_pos k a : 0 <= k -> norm (vscale k a) = k * norm a.
Proof.
  intros Hk. unfold norm. rewrite dot_scale_l, dot_scale_r, <- Rmult_assoc.
  rewrite sqrt_mult; [|nra|apply dot_self_nonneg].
  rewrite sqrt_square; auto.
Qed.
Lemma norm_neg a : norm (vneg a) = norm a.
Proof. unfold norm. f_equal. vsimp. ring. Qed.
Lemma distance_sym a b : distance_between a b = distance_between b a.
Proof. unfold distance_between, norm. f_equal. vsimp. ring. Qed.

(** Lagrange identity, hence Cauchy-Schwarz. *)
Lemma lagrange a b : dot (cross a b) (cross a b) = dot a a * dot b b - dot a b * dot a b.
Proof. vsimp; ring. Qed.
Lemma cauchy_schwarz_sq a b : dot a b * dot a b <= dot a a * dot b b.
Proof. pose proof (dot_self_nonneg (cross a b)) as H. rewrite lagrange in H. lra. Qed.
Lemma unit_dot_range a b : is_unit a -> is_unit b -> -1 <= dot a b <= 1.
Proof.
  unfold is_unit. intros Ha Hb. pose proof (cauchy_schwarz_sq a b) as H.
  rewrite Ha, Hb in H. split; nra.
Qed.

(** ** Matrices *)
Record mat := M { r1 : vec; r2 : vec; r3 : vec }.
Definition mvec (m : mat) (v : vec) := V (dot (r1 m) v) (dot (r2 m) v) (dot (r3 m) v).
Definition mtrans (m : mat) : mat :=
  M (V (vx (r1 m)) (vx (r2 m)) (vx (r3 m)))
    (V (vy (r1 m)) (vy (r2 m)) (vy (r3 m)))
    (V (vz (r1 m)) (vz (r2 m)) (vz (r3 m))).
Definition mmul (a b : mat) : mat :=
  let t := mtrans b in
  M (V (dot (r1 a) (r1 t)) (dot (r1 a) (r2 t)) (dot (r1 a) (r3 t)))
    (V (dot (r2 a) (r1 t)) (dot (r2 a) (r2 t)) (dot (r2 a) (r3 t)))
    (V (dot (r3 a) (r1 t)) (dot (r3 a) (r2 t)) (dot (r3 a) (r3 t))).
Definition mid : mat := M (V 1 0 0) (V 0 1 0) (V 0 0 1).
Definition mdet (m : mat) : R := dot (r1 m) (cross (r2 m) (r3 m)).

Lemma mat_eq a b : r1 a = r1 b -> r2 a = r2 b -> r3 a = r3 b -> a = b.
Proof. destruct a, b; simpl; intros; subst; reflexivity. Qed.
Ltac msimp := unfold mmul, mtrans, mvec, mid in *; vsimp.
Ltac meq := apply mat_eq; msimp; veq.
Ltac mveq := apply vec_eq; msimp; try ring.

Lemma mmul_assoc a b c : mmul a (mmul b c) = mmul (mmul a b) c.
Proof. destruct a as [[] [] []], b as [[] [] []], c as [[] [] []]. meq. Qed.
Lemma mmul_id_l a : mmul mid a = a.
Proof. destruct a as [[] [] []]. meq. Qed.
Lemma mmul_id_r a : mmul a mid = a.
Proof. destruct a as [[] [] []]. meq. Qed.
Lemma mvec_mmul a b v : mvec (mmul a b) v = mvec a (mvec b v).
Proof. destruct a as [[] [] []], b as [[] [] []], v. mveq. Qed.
Lemma mvec_id v : mvec mid v = v.
Proof. destruct v. mveq. Qed.
Lemma mvec_add m a b : mvec m (vadd a b) = vadd (mvec m a) (mvec m b).
Proof. mveq. Qed.
Lemma mvec_sub m a b : mvec m (vsub a b) = vsub (mvec m a) (mvec m b).
Proof. mveq. Qed.
Lemma mvec_scale m k a : mvec m (vscale k a) = vscale k (mvec m a).
Proof. mveq. Qed.
Lemma mvec_neg m a : mvec m (vneg a) = vneg (mvec m a).
Proof. mveq. Qed.
Lemma mtrans_mmul a b : mtrans (mmul a b) = mmul (mtrans b) (mtrans a).
Proof. destruct a as [[] [] []], b as [[] [] []]. meq. Qed.
Lemma mtrans_invol a : mtrans (mtrans a) = a.
Proof. destruct a as [[] [] []]. reflexivity. Qed.
Lemma dot_mvec m a b : dot (mvec m a) b = dot a (mvec (mtrans m) b).
Proof. destruct m as [[] [] []], a, b. msimp. ring. Qed.

(** Orthogonal: M^T M = I and M M^T = I. *)
Definition orthogonal (m : mat) : Prop := mmul (mtrans m) m = mid /\ mmul m (mtrans m) = mid.

Lemma orthogonal_id : orthogonal mid.
Proof. split; meq. Qed.
Lemma orthogonal_mul a b : orthogonal a -> orthogonal b -> orthogonal (mmul a b).
Proof.
  intros [Ha Ha'] [Hb Hb']. split; rewrite mtrans_mmul.
  - rewrite <- mmul_assoc, (mmul_assoc (mtrans a)), Ha, mmul_id_l. exact Hb.
  - rewrite <- mmul_assoc, (mmul_assoc b), Hb', mmul_id_l. exact Ha'.
Qed.
Lemma orthogonal_trans a : orthogonal a -> orthogonal (mtrans a).
Proof. intros [H1 H2]. split; rewrite mtrans_invol; assumption. Qed.
Lemma orthogonal_dot m a b : orthogonal m -> dot (mvec m a) (mvec m b) = dot a b.
Proof.
  intros [H _]. rewrite dot_mvec, <- mvec_mmul, H, mvec_id. reflexivity.
Qed.
Lemma orthogonal_norm m a : orthogonal m -> norm (mvec m a) = norm a.
Proof. intros H. unfold norm. now rewrite orthogonal_dot. Qed.
Lemma orthogonal_unit m a : orthogonal m -> is_unit a -> is_unit (mvec m a).
Proof. unfold is_unit. intros H Ha. now rewrite orthogonal_dot. Qed.
Lemma orthogonal_inv_l m v : orthogonal m -> mvec (mtrans m) (mvec m v) = v.
Proof. intros [H _]. now rewrite <- mvec_mmul, H, mvec_id. Qed.
Lemma orthogonal_inv_r m v : orthogonal m -> mvec m (mvec (mtrans m) v) = v.
Proof. intros [_ H]. now rewrite <- mvec_mmul, H, mvec_id. Qed.

(** ** Rigid motions p |-> R p + t *)
Record rigid := Rigid { rot : mat; tra : vec }.
Definition wf_rigid (g : rigid) := orthogonal (rot g).
Definition to_point (g : rigid) (p : vec) := vadd (mvec (rot g) p) (tra g).
Definition to_vector (g : rigid) (v : vec) := mvec (rot g) v.
Definition rinv (g : rigid) : rigid :=
  Rigid (mtrans (rot g)) (vneg (mvec (mtrans (rot g)) (tra g))).
Definition rcomp (g h : rigid) : rigid :=
  Rigid (mmul (rot g) (rot h)) (to_point g (tra h)).
Definition rid := Rigid mid vzero.

Lemma rinv_point_l g p : wf_rigid g -> to_point (rinv g) (to_point g p) = p.
Proof.
  intros H. unfold to_point, rinv; simpl.
  rewrite mvec_add, (orthogonal_inv_l _ _ H). veq.
Qed.
Lemma rinv_point_r g p : wf_rigid g -> to_point g (to_point (rinv g) p) = p.
Proof.
  intros H. unfold to_point, rinv; simpl.
  rewrite mvec_add, mvec_neg, !(orthogonal_inv_r _ _ H). veq.
Qed.
Lemma rinv_vector_l g v : wf_rigid g -> to_vector (rinv g) (to_vector g v) = v.
Proof. intros H. apply (orthogonal_inv_l _ _ H). Qed.
Lemma rinv_vector_r g v : wf_rigid g -> to_vector g (to_vector (rinv g) v) = v.
Proof. intros H. apply (orthogonal_inv_r _ _ H). Qed.
Lemma wf_rinv g : wf_rigid g -> wf_rigid (rinv g).
Proof. apply orthogonal_trans. Qed.
Lemma to_vector_dot g a b : wf_rigid g -> dot (to_vector g a) (to_vector g b) = dot a b.
Proof. apply orthogonal_dot. Qed.
Lemma to_point_sub g a b : vsub (to_point g a) (to_point g b) = to_vector g (vsub a b).
Proof. unfold to_point, to_vector. rewrite mvec_sub. veq. Qed.
Lemma to_point_distance g a b : wf_rigid g ->
  distance_between (to_point g a) (to_point g b) = distance_between a b.
Proof.
  intros H. unfold distance_between, norm. rewrite to_point_sub, to_vector_dot; auto.
Qed.
Lemma to_point_line g p d t :
  to_point g (vadd p (vscale t d)) = vadd (to_point g p) (vscale t (to_vector g d)).
Proof. unfold to_point, to_vector. rewrite mvec_add, mvec_scale. veq. Qed.
