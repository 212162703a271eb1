(** Lemmas about the Python tracer. *)
From Coq Require Import Reals Lra List Bool Arith Lia Permutation Sorted.
From Verif Require Import Base Vec DistModel MaterialModel MaterialProps OpticsModel PhaseModel TransformModel GeomProofs TracerModel.
Import ListNotations.
Open Scope R_scope.

Definition wf_draws (u : draws) : Prop :=
  0 <= u_depth u < 1 /\ 0 <= u_comp u < 1 /\ 0 <= u_rad u < 1 /\ 0 <= u_ph1 u < 1 /\ 0 <= u_ph2 u < 1 /\
  0 <= u_wl u < 1 /\ 0 <= u_tau u < 1 /\ 0 <= u_surf u < 1 /\ 0 <= u_d1 u < 1 /\ 0 <= u_d2 u < 1.

(** A physically sensible scene: rigid frames, positive indices, non-negative stored
    distances and lifetimes, phase functions and surfaces that give unit directions. *)
Record wf_scene (S : scene) : Prop := {
  wf_frames : forall n, wf_rigid (l2w S n) /\ w2l S n = rinv (l2w S n);
  wf_index : forall n, 0 < n_of S n;
  wf_hits : forall p d i, In i (hits S p d) -> 0 <= h_distance i;
  wf_comps : forall n c, In c (comps S n) -> 0 <= c_tau_rad c /\ 0 <= c_tau_nr c /\
    (forall u v d, 0 <= u < 1 -> 0 <= v < 1 -> c_phase c u v = Some d -> is_unit d);
  wf_surf : forall n u r c a, wf_draws u -> is_unit (direction r) ->
    (forall d, s_reflected (surf S n) u r n c a = Some d -> is_unit d) /\
    (forall x d, s_reflectivity (surf S n) u r n c a = Some x -> is_reflected x (u_surf u) = false ->
       s_transmitted (surf S n) u r n c a = Some d -> is_unit d) }.

(** ** Shape of one pass *)
Inductive interaction : list kind -> Prop :=
| i_reflect : interaction [REFLECT]
| i_transmit : interaction [TRANSMIT]
| i_emit : interaction [ABSORB; EMIT]
| i_scatter : interaction [ABSORB; SCATTER].

Inductive ending : list kind -> Prop :=
| e_none : ending []
| e_exit : ending [EXIT]
| e_killed : ending [KILL]
| e_lost : ending [ABSORB; NONRADIATIVE]
| e_react : ending [ABSORB; REACT].

Definition kinds (l : list event) : list kind := map e_kind l.

Lemma absorb_shape S m u c x r : match absorb_step S m u c x r with
  | Stop evs => ending (kinds evs)
  | Raise evs => kinds evs = [] \/ kinds evs = [ABSORB]
  | Continue evs _ => interaction (kinds evs)
  end.
Proof.
  unfold absorb_step. cbv zeta. destruct (coefficients _ _) as [coefs|]; [|left; reflexivity].
  destruct (select_component _ _) as [k|]; [|left; reflexivity].
  destruct (nth_error _ _) as [cm|]; [|left; reflexivity].
  destruct (is_radiative _ _ _).
  - destruct (emit _ _ _ _ _ _); [|right; reflexivity]. destruct (c_kind cm); constructor.
  - destruct (c_kind cm); constructor.
Qed.

Lemma surface_shape S u h c a D r : match surface_step S u h c a D r with
  | Stop evs => False
  | Raise evs => kinds evs = [] \/ kinds evs = [ABSORB]
  | Continue evs _ => interaction (kinds evs)
  end.
Proof.
  unfold surface_step. cbv zeta. destruct (normal_of _ _ _) as [n|]; [|left; reflexivity].
  destruct (s_reflectivity _ _ _ _ _ _) as [x|]; [|left; reflexivity].
  destruct (is_reflected _ _).
  - destruct (s_reflected _ _ _ _ _ _); [constructor|left; reflexivity].
  - destruct (s_transmitted _ _ _ _ _ _); [|left; reflexivity]. destruct a; [constructor|left; reflexivity].
Qed.

Lemma pass_shape S ms mp m u count r : match pass S ms mp m u count r with
  | Stop evs => ending (kinds evs)
  | Raise evs => kinds evs = [] \/ kinds evs = [ABSORB]
  | Continue evs _ => interaction (kinds evs)
  end.
Proof.
  unfold pass. destruct (next_hit S r) as [| |h c a D]; [constructor|left; reflexivity|].
  destruct (_ || _); [constructor|]. destruct (Nat.eqb h (root S)); [constructor|].
  destruct (total_attenuation _ _) as [alpha|]; [|left; reflexivity].
  assert (Hs := surface_shape S u h c a D r).
  destruct (penetration_depth _ _) as [x|]; [destruct (Rltb x D)|].
  - apply absorb_shape.
  - destruct (surface_step _ _ _ _ _ _ _); tauto.
  - destruct (surface_step _ _ _ _ _ _ _); tauto.
Qed.

(** ** The links between consecutive rays *)
Definition move (r r' : ray) (n : R) : Prop :=
  direction r' = direction r /\ exists D, 0 <= D /\ r' = propagate r D n.

Definition link (S : scene) (r : ray) (e : event) : Prop :=
  let r' := e_ray e in
  match e_kind e with
  | GENERATE => False
  | KILL => r' = r
  | EXIT => exists h c a D, next_hit S r = HitOk h c a D /\ 0 <= D /\ h = root S /\
      e_hit e = Some h /\ e_container e = Some c /\ e_adjacent e = a /\
      r' = propagate r D (n_of S c)
  | REFLECT | TRANSMIT => exists h c a D d, next_hit S r = HitOk h c a D /\ 0 <= D /\ h <> root S /\
      e_hit e = Some h /\ e_container e = Some c /\ e_adjacent e = a /\
      is_unit d /\ r' = with_direction (propagate r D (n_of S c)) d
  | ABSORB => exists h c a D x, next_hit S r = HitOk h c a D /\ 0 <= x < D /\ h <> root S /\
      e_container e = Some c /\ r' = propagate r x (n_of S c) /\
      exists k cm, e_comp e = Some k /\ nth_error (comps S c) k = Some cm
  | EMIT | SCATTER => exists c k cm, e_container e = Some c /\ e_comp e = Some k /\ nth_error (comps S c) k = Some cm /\
      position r' = position r /\ travelled r' = travelled r /\ duration r <= duration r' /\
      source r' = Emitter c k /\ is_unit (direction r') /\
      (e_kind e = EMIT <-> c_kind cm = Luminophore) /\
      (e_kind e = SCATTER -> wavelength r' = wavelength r /\ duration r' = duration r)
  | NONRADIATIVE | REACT => exists c k cm, e_container e = Some c /\ e_comp e = Some k /\ nth_error (comps S c) k = Some cm /\
      position r' = position r /\ direction r' = direction r /\ wavelength r' = wavelength r /\
      travelled r' = travelled r /\ source r' = source r /\ duration r <= duration r' /\
      (e_kind e = REACT <-> c_kind cm = Reactor)
  end.

Fixpoint chain (S : scene) (r : ray) (es : list event) : Prop :=
  match es with
  | [] => True
  | e :: es => link S r e /\ is_unit (direction (e_ray e)) /\ chain S (e_ray e) es
  end.

Fixpoint end_ray (r : ray) (es : list event) : ray :=
  match es with [] => r | e :: es => end_ray (e_ray e) es end.

Lemma next_hit_nonneg S r h c a D : wf_scene S -> next_hit S r = HitOk h c a D -> 0 <= D.
Proof.
  intros W. unfold next_hit. cbv zeta. remember (filter _ _) as l eqn:El.
  destruct l as [|i [|j l]]; [discriminate| |].
  - injection 1 as <- <- <- <-. apply (wf_hits _ W (position r) (direction r)).
    assert (H : In i [i]) by (left; reflexivity). rewrite El in H. now apply filter_In in H.
  - destruct (find_container _); [|discriminate]. injection 1 as <- <- <- <-. apply norm_nonneg.
Qed.

Lemma coefficients_nonneg_total cs nm coefs u k : coefficients cs nm = Some coefs ->
  select_component coefs u = Some k -> exists a, total_attenuation cs nm = Some a /\ 0 <= a.
Proof.
  intros H Hk. exists (rsum coefs). unfold total_attenuation. rewrite H. split; [reflexivity|].
  apply rsum_nonneg. apply Forall_forall. intros c Hc. apply Rnot_lt_le. intros Hneg.
  rewrite C33_negative_coefficient_rejected in Hk; [discriminate|].
  apply Exists_exists. now exists c.
Qed.

Lemma penetration_nonneg alpha u x : 0 <= alpha -> 0 <= u < 1 -> penetration_depth alpha u = Fin x -> 0 <= x.
Proof.
  intros Ha Hu. unfold penetration_depth. destruct (isclose_zero alpha) eqn:E; [discriminate|].
  injection 1 as <-. unfold isclose_zero in E. apply Rleb_false in E. rewrite Rabs_right in E by lra.
  assert (0 < alpha_tol) by (unfold alpha_tol; apply Rinv_0_lt_compat; apply pow_lt; lra).
  assert (ln (1 - u) <= 0).
  { destruct (Req_dec u 0) as [->|]; [rewrite Rminus_0_r, ln_1; lra|].
    rewrite <- ln_1. left. apply ln_increasing; lra. }
  apply Rmult_le_pos; [lra|]. left. apply Rinv_0_lt_compat. lra.
Qed.

Lemma delay_nonneg tau u : 0 <= tau -> 0 <= u < 1 -> 0 <= delay tau u.
Proof. intros Ht Hu. now destruct (C36_delay_nonneg tau u Ht Hu). Qed.

Lemma round_trip S n p : wf_scene S -> to_point (l2w S n) (to_point (w2l S n) p) = p.
Proof. intros W. destruct (wf_frames _ W n) as [H ->]. now apply rinv_point_r. Qed.
Lemma round_trip_v S n p : wf_scene S -> to_vector (l2w S n) (to_vector (w2l S n) p) = p.
Proof. intros W. destruct (wf_frames _ W n) as [H ->]. now apply rinv_vector_r. Qed.
Lemma l2w_unit S n d : wf_scene S -> is_unit d -> is_unit (to_vector (l2w S n) d).
Proof. intros W H. destruct (wf_frames _ W n) as [Hw _]. unfold is_unit. now rewrite to_vector_dot. Qed.
Lemma w2l_unit S n d : wf_scene S -> is_unit d -> is_unit (to_vector (w2l S n) d).
Proof. intros W H. destruct (wf_frames _ W n) as [Hw ->]. unfold is_unit. rewrite to_vector_dot; [exact H|]. now apply wf_rinv. Qed.

Lemma emit_spec S m u c k cm r r' : wf_scene S -> wf_draws u -> In cm (comps S c) ->
  emit c k cm m u r = Some r' ->
  position r' = position r /\ travelled r' = travelled r /\ duration r <= duration r' /\
  source r' = Emitter c k /\ is_unit (direction r') /\
  (c_kind cm <> Luminophore -> wavelength r' = wavelength r /\ duration r' = duration r).
Proof.
  intros W (_ & _ & _ & U1 & U2 & _ & Ut & _) Hin. destruct (wf_comps _ W _ _ Hin) as (T1 & _ & Hph). unfold emit.
  destruct (c_phase cm _ _) as [d|] eqn:Ed; [|discriminate]. pose proof (Hph _ _ _ U1 U2 Ed) as Hd.
  destruct (c_kind cm);
    [| | |destruct (emit_wavelength _ _ _ _ _); [|discriminate]];
    injection 1 as <-; simpl; (repeat (split; [first [reflexivity|assumption|lra]|])); try tauto.
  split; [|split; [reflexivity|split; [exact Hd|congruence]]].
  pose proof (delay_nonneg (c_tau_rad cm) (u_tau u) T1 Ut). lra.
Qed.

Lemma absorb_chain S m u h c a D x alpha r : wf_scene S -> wf_draws u -> is_unit (direction r) ->
  next_hit S r = HitOk h c a D -> h <> root S ->
  total_attenuation (comps S c) (wavelength r) = Some alpha ->
  penetration_depth alpha (u_depth u) = Fin x -> x < D ->
  match absorb_step S m u c x r with
  | Stop evs | Raise evs => chain S r evs
  | Continue evs r' => chain S r evs /\ end_ray r evs = r'
  end.
Proof.
  intros W Hu Hd Hh Hroot Ha Hx HD. unfold absorb_step. cbv zeta.
  destruct (coefficients _ _) as [coefs|] eqn:Ec; [|exact I].
  destruct (select_component _ _) as [k|] eqn:Ek; [|exact I].
  destruct (nth_error _ _) as [cm|] eqn:En; [|exact I].
  assert (Hin : In cm (comps S c)) by (eapply nth_error_In; exact En).
  assert (Hx0 : 0 <= x).
  { change (wavelength (propagate r x (n_of S c))) with (wavelength r) in Ec.
    destruct (coefficients_nonneg_total _ _ _ _ _ Ec Ek) as (a' & Ha' & Hpos).
    rewrite Ha in Ha'. injection Ha' as <-. apply (penetration_nonneg alpha (u_depth u)); auto. apply Hu. }
  set (r1 := propagate r x (n_of S c)).
  set (ev := Event ABSORB r1 None (Some c) None (Some k) None).
  assert (L1 : link S r ev).
  { unfold link; simpl. exists h, c, a, D, x. split; [exact Hh|]. split; [lra|].
    split; [exact Hroot|]. split; [reflexivity|]. split; [reflexivity|]. exists k, cm. split; [reflexivity|exact En]. }
  destruct (is_radiative _ _ _).
  - destruct (emit _ _ _ _ _ _) as [r2|] eqn:Er.
    2:{ simpl. split; [exact L1|]. split; [exact Hd|exact I]. }
    destruct (emit_spec S m u c k cm _ _ W Hu Hin Er) as (P1 & P2 & P3 & P4 & P5 & P6).
    split; [|reflexivity]. simpl. split; [exact L1|]. split; [exact Hd|]. split; [|split; [now apply l2w_unit|exact I]].
    assert (Hlink : forall kd, (kd = EMIT /\ c_kind cm = Luminophore) \/ (kd = SCATTER /\ c_kind cm <> Luminophore) ->
              link S r1 (Event kd (representation (l2w S c) r2) None (Some c) None (Some k) None)).
    { intros kd Hkd. unfold link; simpl.
      assert (K : exists c0 k0 cm0, Some c = Some c0 /\ Some k = Some k0 /\ nth_error (comps S c0) k0 = Some cm0 /\
        to_point (l2w S c) (position r2) = position r1 /\ travelled r2 = travelled r1 /\
        duration r1 <= duration r2 /\ source r2 = Emitter c0 k0 /\ is_unit (to_vector (l2w S c) (direction r2)) /\
        (kd = EMIT <-> c_kind cm0 = Luminophore) /\ (kd = SCATTER -> wavelength r2 = wavelength r1 /\ duration r2 = duration r1)).
      { exists c, k, cm. split; [reflexivity|]. split; [reflexivity|]. split; [exact En|].
        split; [rewrite P1; apply (round_trip S c _ W)|]. split; [exact P2|]. split; [exact P3|].
        split; [exact P4|]. split; [now apply l2w_unit|]. split.
        - destruct Hkd as [[-> ->]|[-> Hk]]; [tauto|]. split; [discriminate|contradiction].
        - intros ->. apply P6. destruct Hkd as [[]|[]]; [discriminate|assumption]. }
      destruct Hkd as [[-> _]|[-> _]]; exact K. }
    apply Hlink. destruct (c_kind cm); (left; split; [reflexivity|reflexivity]) || (right; split; [reflexivity|discriminate]).
  - assert (Hlink : forall kd, (kd = REACT /\ c_kind cm = Reactor) \/ (kd = NONRADIATIVE /\ c_kind cm <> Reactor) ->
              link S r1 (Event kd (nonradiative_absorb cm u r1) None (Some c) None (Some k) None)).
    { intros kd Hkd. unfold link; simpl.
      assert (K : exists c0 k0 cm0, Some c = Some c0 /\ Some k = Some k0 /\ nth_error (comps S c0) k0 = Some cm0 /\
        position r1 = position r1 /\ direction r1 = direction r1 /\ wavelength r1 = wavelength r1 /\ travelled r1 = travelled r1 /\
        source r1 = source r1 /\ duration r1 <= duration r1 + delay (c_tau_nr cm) (u_tau u) /\ (kd = REACT <-> c_kind cm0 = Reactor)).
      { exists c, k, cm. split; [reflexivity|]. split; [reflexivity|]. split; [exact En|].
        do 5 (split; [reflexivity|]). split.
        - destruct (wf_comps _ W _ _ Hin) as (_ & T & _).
          assert (0 <= delay (c_tau_nr cm) (u_tau u)) by (apply delay_nonneg; [exact T|apply Hu]). lra.
        - destruct Hkd as [[-> ->]|[-> Hk]]; [tauto|]. split; [discriminate|contradiction]. }
      destruct Hkd as [[-> _]|[-> _]]; exact K. }
    split; [exact L1|]. split; [exact Hd|]. split; [|split; [exact Hd|exact I]].
    apply Hlink. destruct (c_kind cm); (left; split; [reflexivity|reflexivity]) || (right; split; [reflexivity|discriminate]).
Qed.

Lemma surface_chain S u h c a D r : wf_scene S -> wf_draws u -> is_unit (direction r) ->
  next_hit S r = HitOk h c a D -> h <> root S ->
  match surface_step S u h c a D r with
  | Stop evs | Raise evs => chain S r evs
  | Continue evs r' => chain S r evs /\ end_ray r evs = r'
  end.
Proof.
  intros W Hu Hd Hh Hroot. pose proof (next_hit_nonneg _ _ _ _ _ _ W Hh) as HD. unfold surface_step. cbv zeta.
  set (r1 := propagate r D (n_of S c)). set (lr := representation (w2l S h) r1).
  assert (Ul : is_unit (direction lr)) by (apply (w2l_unit S h (direction r) W Hd)).
  destruct (normal_of _ _ _) as [n|]; [|exact I].
  destruct (wf_surf _ W h u lr c a Hu Ul) as [Wr Wt].
  destruct (s_reflectivity _ _ _ _ _ _) as [x|] eqn:Ex; [|exact I].
  assert (K : forall kd d, (kd = REFLECT \/ kd = TRANSMIT) -> is_unit d ->
     chain S r [Event kd (representation (l2w S h) (with_direction lr d)) (Some h) (Some c) a None (Some (to_vector (l2w S h) n))]).
  { intros kd d Hk Ud. simpl. split; [|split; [now apply l2w_unit|exact I]].
    unfold link; simpl.
    assert (P : exists h0 c0 a0 D0 d0, next_hit S r = HitOk h0 c0 a0 D0 /\ 0 <= D0 /\ h0 <> root S /\
      Some h = Some h0 /\ Some c = Some c0 /\ a = a0 /\ is_unit d0 /\
      representation (l2w S h) (with_direction lr d) = with_direction (propagate r D0 (n_of S c0)) d0).
    { exists h, c, a, D, (to_vector (l2w S h) d). split; [exact Hh|]. split; [exact HD|]. split; [exact Hroot|].
      do 3 (split; [reflexivity|]). split; [now apply l2w_unit|].
      unfold representation, with_direction, lr, representation; simpl. rewrite (round_trip S h _ W). reflexivity. }
    destruct Hk as [->| ->]; exact P. }
  destruct (is_reflected x (u_surf u)) eqn:Er.
  - destruct (s_reflected _ _ _ _ _ _) as [d|] eqn:Es; [|exact I].
    split; [|reflexivity]. apply K; [now left|now apply Wr].
  - destruct (s_transmitted _ _ _ _ _ _) as [d|] eqn:Es; [|exact I]. destruct a as [a|]; [|exact I].
    split; [|reflexivity]. apply K; [now right|]. apply (Wt x d eq_refl Er eq_refl).
Qed.

Lemma pass_chain S ms mp m u count r : wf_scene S -> wf_draws u -> is_unit (direction r) ->
  match pass S ms mp m u count r with
  | Stop evs | Raise evs => chain S r evs
  | Continue evs r' => chain S r evs /\ end_ray r evs = r'
  end.
Proof.
  intros W Hu Hd. unfold pass. destruct (next_hit S r) as [| |h c a D] eqn:Eh; [exact I|exact I|].
  destruct (_ || _); [simpl; split; [reflexivity|split; [exact Hd|exact I]]|].
  destruct (Nat.eqb_spec h (root S)) as [Hr|Hr].
  { simpl. split; [|split; [exact Hd|exact I]]. unfold link; simpl. exists h, c, a, D.
    split; [exact Eh|]. split; [now apply (next_hit_nonneg _ _ _ _ _ _ W Eh)|].
    split; [exact Hr|]. do 3 (split; [reflexivity|]). reflexivity. }
  destruct (total_attenuation _ _) as [alpha|] eqn:Ea; [|exact I].
  destruct (penetration_depth _ _) as [x|] eqn:Ex; [destruct (Rltb_spec x D)|].
  - eapply absorb_chain; eauto.
  - now apply surface_chain.
  - now apply surface_chain.
Qed.

Lemma chain_app S r a b : chain S r (a ++ b) <-> chain S r a /\ chain S (end_ray r a) b.
Proof.
  revert r. induction a as [|e a IH]; intros r; simpl; [tauto|]. rewrite IH. tauto.
Qed.
Lemma chain_end_unit S r a : is_unit (direction r) -> chain S r a -> is_unit (direction (end_ray r a)).
Proof. revert r. induction a as [|e a IH]; intros r Hr; simpl; [auto|]. intros (_ & H & Hc). now apply IH. Qed.

Lemma loop_chain S ms mp m us : wf_scene S -> (forall i, wf_draws (us i)) ->
  forall fuel count r, is_unit (direction r) -> chain S r (fst (loop fuel S ms mp m us count r)).
Proof.
  intros W Hu. induction fuel as [|fuel IH]; intros count r Hd; [exact I|]. simpl.
  pose proof (pass_chain S ms mp m (us (Datatypes.S count)) (Datatypes.S count) r W (Hu _) Hd) as H.
  destruct (pass _ _ _ _ _ _ _) as [evs|evs|evs r']; [exact H|exact H|].
  destruct H as [Hc He]. specialize (IH (Datatypes.S count) r').
  destruct (loop fuel _ _ _ _ _ _ r') as [rest st]. simpl in *. apply chain_app. split; [exact Hc|].
  rewrite He. apply IH. rewrite <- He. now apply (chain_end_unit S).
Qed.

Lemma chain_consecutive S r pre e1 e2 post : chain S r (pre ++ e1 :: e2 :: post) ->
  link S (e_ray e1) e2 /\ is_unit (direction (e_ray e1)).
Proof. rewrite chain_app. simpl. tauto. Qed.

(** ** Counting interactions *)
Definition is_contact (k : kind) : bool :=
  match k with REFLECT | TRANSMIT | ABSORB | EXIT => true | _ => false end.
Definition contacts (l : list event) : nat := length (filter (fun e => is_contact (e_kind e)) l).

Lemma contacts_app a b : contacts (a ++ b) = (contacts a + contacts b)%nat.
Proof. unfold contacts. rewrite filter_app, app_length. reflexivity. Qed.
Lemma contacts_kinds a : contacts a = length (filter is_contact (kinds a)).
Proof. unfold contacts, kinds. induction a as [|e a IH]; simpl; [reflexivity|]. destruct (is_contact _); simpl; now rewrite IH. Qed.
Lemma contacts_interaction evs : interaction (kinds evs) -> contacts evs = 1%nat.
Proof. rewrite contacts_kinds. intros H; inversion H; reflexivity. Qed.

(** ** Intervals along a ray *)
Record obj := Obj { o_id : nat; o_lo : R; o_hi : R }.
Definition contains (o : obj) (t : R) : Prop := o_lo o < t < o_hi o.
Definition innermost (objs : list obj) (t : R) (o : obj) : Prop :=
  In o objs /\ contains o t /\ forall o', In o' objs -> contains o' t -> o_lo o' <= o_lo o /\ o_hi o <= o_hi o'.
(** nested or disjoint *)
Definition laminar (o o' : obj) : Prop :=
  o_hi o <= o_lo o' \/ o_hi o' <= o_lo o \/
  (o_lo o <= o_lo o' /\ o_hi o' <= o_hi o) \/ (o_lo o' <= o_lo o /\ o_hi o <= o_hi o').
Definition distinct_faces (o o' : obj) : Prop :=
  o_lo o <> o_lo o' /\ o_hi o <> o_hi o' /\ o_lo o <> o_hi o' /\ o_hi o <> o_lo o'.
(** A face at parameter t: behind the ray or ahead by more than the tolerance *)
Definition clear (t : R) : Prop := t < 0 \/ EPS_ZERO < t.
Record family (objs : list obj) : Prop := {
  fam_ids : NoDup (map o_id objs);
  fam_order : forall o, In o objs -> o_lo o < o_hi o /\ clear (o_lo o) /\ clear (o_hi o);
  fam_pairs : forall o o', In o objs -> In o' objs -> o <> o' -> laminar o o' /\ distinct_faces o o' }.

Definition faces (p d : vec) (o : obj) : list intersection :=
  map (fun t => Hit (o_id o) (vadd p (vscale t d)) t) (filter (fun t => Rltb 0 t) [o_lo o; o_hi o]).

(** [l] is what scene.intersections returns for the family: every face ahead, in order
    of distance. *)
Definition reports (l : list intersection) (p d : vec) (objs : list obj) : Prop :=
  Permutation l (flat_map (faces p d) objs) /\ sorted_by h_distance l.

Lemma eps_pos : 0 < EPS_ZERO.
Proof. unfold EPS_ZERO. apply Rmult_lt_0_compat; [lra|]. apply Rinv_0_lt_compat, pow_lt; lra. Qed.

Lemma in_faces p d objs i : In i (flat_map (faces p d) objs) <->
  exists o, In o objs /\ h_node i = o_id o /\ (h_distance i = o_lo o \/ h_distance i = o_hi o) /\ 0 < h_distance i /\
    h_point i = vadd p (vscale (h_distance i) d).
Proof.
  rewrite in_flat_map. unfold faces. split.
  - intros (o & Ho & Hi). apply in_map_iff in Hi. destruct Hi as (t & <- & Ht). apply filter_In in Ht.
    destruct Ht as [Ht H0]. apply Rltb_true in H0. exists o. simpl in *. split; [exact Ho|]. split; [reflexivity|].
    split; [|split; [exact H0|reflexivity]]. destruct Ht as [<-|[<-|[]]]; auto.
  - intros (o & Ho & Hn & Hd & H0 & Hp). exists o. split; [exact Ho|]. apply in_map_iff. exists (h_distance i).
    split; [destruct i; simpl in *; subst; reflexivity|]. apply filter_In. split; [|now apply Rltb_true].
    destruct Hd as [->| ->]; simpl; auto.
Qed.

Lemma count_app n a b : count_hits n (a ++ b) = (count_hits n a + count_hits n b)%nat.
Proof. unfold count_hits. rewrite filter_app, app_length. reflexivity. Qed.
Lemma count_perm n a b : Permutation a b -> count_hits n a = count_hits n b.
Proof.
  unfold count_hits. induction 1 as [|x a b _ IH|x y a|a b c _ IH1 _ IH2]; simpl; [reflexivity| | |congruence].
  - destruct (Nat.eqb (h_node x) n); simpl; now rewrite IH.
  - destruct (Nat.eqb (h_node x) n), (Nat.eqb (h_node y) n); reflexivity.
Qed.

Lemma count_faces_other n p d o : n <> o_id o -> count_hits n (faces p d o) = 0%nat.
Proof.
  intros H. unfold count_hits, faces. replace (filter _ _) with (@nil intersection); [reflexivity|].
  symmetry. induction (filter (fun t => Rltb 0 t) [o_lo o; o_hi o]) as [|t l IH]; simpl; [reflexivity|].
  destruct (Nat.eqb_spec (o_id o) n); [congruence|exact IH].
Qed.
Lemma count_faces_self p d o : count_hits (o_id o) (faces p d o) = length (filter (fun t => Rltb 0 t) [o_lo o; o_hi o]).
Proof.
  unfold count_hits, faces. induction (filter (fun t => Rltb 0 t) [o_lo o; o_hi o]) as [|t l IH]; simpl; [reflexivity|].
  rewrite Nat.eqb_refl. simpl. now rewrite IH.
Qed.

Lemma count_absent n p d objs : ~ In n (map o_id objs) -> count_hits n (flat_map (faces p d) objs) = 0%nat.
Proof.
  induction objs as [|o objs IH]; simpl; [reflexivity|]. intros H. rewrite count_app, count_faces_other, IH; tauto || (intros E; apply H; auto).
Qed.
Lemma count_present o p d objs : NoDup (map o_id objs) -> In o objs ->
  count_hits (o_id o) (flat_map (faces p d) objs) = length (filter (fun t => Rltb 0 t) [o_lo o; o_hi o]).
Proof.
  induction objs as [|x objs IH]; [intros _ []|]. cbn [map flat_map In].
  intros Hn [->|Hin]; inversion Hn as [|? ? Hx Hn']; subst; rewrite count_app.
  - rewrite count_faces_self, count_absent by assumption. lia.
  - rewrite count_faces_other, IH by assumption || (intros E; apply Hx; rewrite <- E; now apply in_map). reflexivity.
Qed.

(** one face ahead = the ray starts inside *)
Lemma count_one o : o_lo o < o_hi o -> clear (o_lo o) -> clear (o_hi o) ->
  (length (filter (fun t => Rltb 0 t) [o_lo o; o_hi o]) = 1%nat <-> contains o 0).
Proof.
  intros Hlt Hl Hh. unfold contains. pose proof eps_pos. simpl.
  destruct (Rltb_spec 0 (o_lo o)), (Rltb_spec 0 (o_hi o)); simpl; split; intros; try lia; try lra;
    destruct Hl, Hh; lra.
Qed.

Section Fam.
  Variables (objs : list obj) (p d : vec) (l : list intersection).
  Hypothesis F : family objs.
  Hypothesis Rp : reports l p d objs.

  Lemma in_l i : In i l <-> exists o, In o objs /\ h_node i = o_id o /\ (h_distance i = o_lo o \/ h_distance i = o_hi o) /\
      0 < h_distance i /\ h_point i = vadd p (vscale (h_distance i) d).
  Proof.
    rewrite <- in_faces. split; apply Permutation_in; [|apply Permutation_sym]; apply Rp.
  Qed.
  Lemma same_id o o' : In o objs -> In o' objs -> o_id o = o_id o' -> o = o'.
  Proof.
    intros H H' E. pose proof (fam_ids _ F) as N. clear F Rp. revert H H' N. induction objs as [|x r IH]; simpl; [tauto|].
    intros [->|H] [->|H'] N; inversion N as [|? ? Hx N']; subst; auto.
    - exfalso. apply Hx. rewrite E. now apply in_map.
    - exfalso. apply Hx. rewrite <- E. now apply in_map.
  Qed.
  Lemma count_l o : In o objs -> (count_hits (o_id o) l = 1%nat <-> contains o 0).
  Proof.
    intros H. rewrite (count_perm _ _ _ (proj1 Rp)), count_present by (auto; apply F).
    apply count_one; apply (fam_order _ F o H).
  Qed.
  Lemma far i : In i l -> close_to_zero (h_distance i) = false.
  Proof.
    intros H. apply in_l in H. destruct H as (o & Ho & _ & Hd & H0 & _). unfold close_to_zero. apply Rltb_false.
    destruct (fam_order _ F o Ho) as (_ & [A|A] & [B|B]); rewrite Rabs_right by lra; destruct Hd as [E|E]; rewrite E in *; lra.
  Qed.
  Lemma filter_far : filter (fun i => negb (close_to_zero (h_distance i))) l = l.
  Proof.
    assert (G : forall k, incl k l -> filter (fun i => negb (close_to_zero (h_distance i))) k = k).
    { induction k as [|i k IH]; intros Hi; simpl; [reflexivity|]. rewrite far by (apply Hi; left; reflexivity). simpl.
      f_equal. apply IH. intros x Hx. apply Hi. now right. }
    apply G, incl_refl.
  Qed.
  Lemma dist_inj i j o o' : In o objs -> In o' objs ->
    (h_distance i = o_lo o \/ h_distance i = o_hi o) -> (h_distance j = o_lo o' \/ h_distance j = o_hi o') ->
    h_distance i = h_distance j -> o = o'.
  Proof.
    intros Ho Ho' Hi Hj E.
    assert (Hdec : {o = o'} + {o <> o'}).
    { destruct o as [a b c], o' as [a' b' c']. destruct (Nat.eq_dec a a'); [|right; congruence].
      destruct (Req_EM_T b b'); [|right; congruence]. destruct (Req_EM_T c c'); [|right; congruence]. left; congruence. }
    destruct Hdec as [|Hne]; [assumption|exfalso].
    destruct (fam_pairs _ F o o' Ho Ho' Hne) as [_ (D1 & D2 & D3 & D4)].
    destruct Hi as [Hi|Hi], Hj as [Hj|Hj]; congruence.
  Qed.
  (** the innermost object at the ray's start is the one whose far face is nearest *)
  Lemma innermost_of_nearest t o : In o objs -> contains o t ->
    (forall o', In o' objs -> contains o' t -> o_hi o <= o_hi o') -> innermost objs t o.
  Proof.
    intros Ho Hc Hmin. split; [exact Ho|]. split; [exact Hc|]. intros o' Ho' Hc'. specialize (Hmin o' Ho' Hc').
    split; [|exact Hmin].
    assert (Hdec : {o_id o = o_id o'} + {o_id o <> o_id o'}) by apply Nat.eq_dec.
    destruct Hdec as [E|E]; [rewrite (same_id o o' Ho Ho' E); lra|].
    assert (Hne : o <> o') by congruence. destruct (fam_pairs _ F o o' Ho Ho' Hne) as [Hl (D1 & D2 & D3 & D4)].
    unfold contains in *. destruct Hl as [H|[H|[[H H']|[H H']]]]; try lra.
  Qed.

  Definition singles := filter (fun i => Nat.eqb (count_hits (h_node i) l) 1) l.
  Lemma in_singles i : In i singles <-> In i l /\ exists o, In o objs /\ h_node i = o_id o /\ contains o 0 /\ h_distance i = o_hi o.
  Proof.
    unfold singles. rewrite filter_In, Nat.eqb_eq. split.
    - intros [Hi Hc]. split; [exact Hi|]. apply in_l in Hi. destruct Hi as (o & Ho & Hn & Hd & H0 & _).
      exists o. rewrite Hn in Hc. apply (count_l o Ho) in Hc. split; [exact Ho|]. split; [exact Hn|]. split; [exact Hc|].
      destruct Hd as [E|E]; [|exact E]. unfold contains in Hc. lra.
    - intros [Hi (o & Ho & Hn & Hc & _)]. split; [exact Hi|]. rewrite Hn. now apply count_l.
  Qed.
  Lemma far_face_in o : In o objs -> contains o 0 -> In (Hit (o_id o) (vadd p (vscale (o_hi o) d)) (o_hi o)) singles.
  Proof.
    intros Ho Hc. apply in_singles. split; [|exists o; simpl; auto].
    apply in_l. exists o. simpl. split; [exact Ho|]. split; [reflexivity|]. split; [now right|]. split; [apply Hc|reflexivity].
  Qed.
  Lemma sorted_singles : sort_by h_distance singles = singles.
  Proof. apply sort_by_sorted_id. apply sorted_by_filter. apply Rp. Qed.

  Lemma head_single i rest : singles = i :: rest -> exists o, innermost objs 0 o /\ h_node i = o_id o /\ h_distance i = o_hi o.
  Proof.
    intros E. assert (Hi : In i singles) by (rewrite E; left; reflexivity).
    apply in_singles in Hi. destruct Hi as [Hi (o & Ho & Hn & Hc & Hd)]. exists o. split; [|auto].
    apply innermost_of_nearest; [exact Ho|exact Hc|]. intros o' Ho' Hc'.
    pose proof (far_face_in o' Ho' Hc') as Hf. rewrite E in Hf.
    assert (Hs : sorted_by h_distance (i :: rest)) by (rewrite <- E; apply sorted_by_filter, Rp).
    pose proof (sorted_by_head h_distance i rest _ Hs Hf) as H. simpl in H. lra.
  Qed.

  (** find_container returns the innermost object *)
  Lemma find_container_eq : find_container l = match singles with [] => None | i :: _ => Some (h_node i) end.
  Proof.
    pose proof sorted_singles as Hs. unfold singles in *. unfold find_container. clear F Rp.
    destruct l as [|i [|j r]]; [reflexivity| |now rewrite Hs].
    cbn [filter]. unfold count_hits. simpl. rewrite Nat.eqb_refl. reflexivity.
  Qed.
  Lemma container_innermost c : find_container l = Some c -> exists o, innermost objs 0 o /\ o_id o = c.
  Proof.
    rewrite find_container_eq. destruct singles as [|k ks] eqn:Es; [discriminate|].
    injection 1 as <-. destruct (head_single _ _ Es) as (o & Ho & Hn & _). exists o. auto.
  Qed.
  Lemma container_defined o : In o objs -> contains o 0 -> exists c, find_container l = Some c.
  Proof.
    intros Ho Hc. pose proof (far_face_in o Ho Hc) as Hf. rewrite find_container_eq.
    destruct singles; [contradiction|eauto].
  Qed.

  (** what the head of the list says about all faces *)
  Lemma head_face i rest : l = i :: rest -> exists o, In o objs /\ h_node i = o_id o /\
      (h_distance i = o_lo o \/ h_distance i = o_hi o) /\ 0 < h_distance i /\
      (forall o' t, In o' objs -> (t = o_lo o' \/ t = o_hi o') -> 0 < t -> h_distance i <= t).
  Proof.
    intros E. assert (Hi : In i l) by (rewrite E; left; reflexivity). apply in_l in Hi.
    destruct Hi as (o & Ho & Hn & Hd & H0 & _). exists o. split; [exact Ho|]. split; [exact Hn|]. split; [exact Hd|].
    split; [exact H0|]. intros o' t Ho' Ht Ht0.
    assert (Hf : In (Hit (o_id o') (vadd p (vscale t d)) t) l).
    { apply in_l. exists o'. simpl. auto. }
    assert (Hs : sorted_by h_distance (i :: rest)) by (rewrite <- E; apply Rp).
    rewrite E in Hf. apply (sorted_by_head h_distance i rest _ Hs Hf).
  Qed.
  (** and the next one about the faces of every other object *)
  Lemma second_face i j rest : l = i :: j :: rest -> exists o, In o objs /\ h_node j = o_id o /\
      (h_distance j = o_lo o \/ h_distance j = o_hi o) /\ 0 < h_distance j /\
      (forall o' t, In o' objs -> (t = o_lo o' \/ t = o_hi o') -> 0 < t ->
         h_distance j <= t \/ (h_node i = o_id o' /\ t = h_distance i)).
  Proof.
    intros E. assert (Hj : In j l) by (rewrite E; right; left; reflexivity). apply in_l in Hj.
    destruct Hj as (o & Ho & Hn & Hd & H0 & _). exists o. split; [exact Ho|]. split; [exact Hn|]. split; [exact Hd|].
    split; [exact H0|]. intros o' t Ho' Ht Ht0.
    assert (Hf : In (Hit (o_id o') (vadd p (vscale t d)) t) l).
    { apply in_l. exists o'. simpl. auto. }
    assert (Hs : sorted_by h_distance (i :: j :: rest)) by (rewrite <- E; apply Rp).
    rewrite E in Hf. destruct Hf as [->|Hf]; [right; auto|left].
    apply sorted_by_tail in Hs. apply (sorted_by_head h_distance j rest _ Hs Hf).
  Qed.
  Lemma two_faces_ordered i j rest : l = i :: j :: rest -> h_distance i < h_distance j.
  Proof.
    intros E. assert (Hs : sorted_by h_distance (i :: j :: rest)) by (rewrite <- E; apply Rp).
    assert (Hle : h_distance i <= h_distance j) by (apply (sorted_by_head h_distance i (j :: rest) j Hs); right; left; reflexivity).
    destruct (Req_dec (h_distance i) (h_distance j)) as [Heq|]; [exfalso|lra].
    assert (Hi : In i l) by (rewrite E; left; reflexivity). assert (Hj : In j l) by (rewrite E; right; left; reflexivity).
    apply in_l in Hi, Hj. destruct Hi as (o & Ho & Hn & Hd & H0 & Hp). destruct Hj as (o' & Ho' & Hn' & Hd' & H0' & Hp').
    assert (o = o') by (apply (dist_inj i j o o'); assumption). subst o'.
    assert (Eij : i = j) by (destruct i, j; simpl in *; congruence). subst j.
    (* the same face twice would make the multiset of faces contain it twice *)
    assert (Hc : (2 <= length (filter (fun x => Reqb (h_distance x) (h_distance i)) (flat_map (faces p d) objs)))%nat).
    { assert (Hperm : Permutation (filter (fun x => Reqb (h_distance x) (h_distance i)) l) (filter (fun x => Reqb (h_distance x) (h_distance i)) (flat_map (faces p d) objs))).
      { apply filter_perm, Rp. }
      rewrite <- (Permutation_length Hperm), E. simpl. destruct (Reqb_spec (h_distance i) (h_distance i)); [simpl; lia|contradiction]. }
    assert (Hu : forall os, incl os objs -> NoDup os ->
      (length (filter (fun x => Reqb (h_distance x) (h_distance i)) (flat_map (faces p d) os)) <=
       length (filter (fun o' => Nat.eqb (o_id o') (o_id o)) os))%nat).
    { induction os as [|x os IH]; intros Hin Hnd; [simpl; lia|]. cbn [flat_map filter]. rewrite filter_app, app_length.
      inversion Hnd; subst.
      assert (IH' : (length (filter (fun x => Reqb (h_distance x) (h_distance i)) (flat_map (faces p d) os)) <=
        length (filter (fun o' => Nat.eqb (o_id o') (o_id o)) os))%nat) by (apply IH; [intros y Hy; apply Hin; now right|assumption]).
      assert (Hx : In x objs) by (apply Hin; left; reflexivity).
      destruct (Nat.eqb_spec (o_id x) (o_id o)) as [Hid|Hid].
      - assert (x = o) by (now apply same_id). subst x. cbn [length].
        assert (length (filter (fun x => Reqb (h_distance x) (h_distance i)) (faces p d o)) <= 1)%nat; [|lia].
        destruct (fam_order _ F o Ho) as (Hlt & _). unfold faces. simpl.
        destruct (Rltb 0 (o_lo o)), (Rltb 0 (o_hi o)); simpl;
          repeat match goal with |- context [Reqb ?a ?b] => destruct (Reqb_spec a b) end; simpl; try lia; exfalso; lra.
      - replace (filter (fun x => Reqb (h_distance x) (h_distance i)) (faces p d x)) with (@nil intersection); [simpl; exact IH'|].
        symmetry. assert (Hno : forall y, In y (faces p d x) -> Reqb (h_distance y) (h_distance i) = false).
        { intros y Hy. apply Reqb_false. intros Hyi. apply Hid. f_equal. symmetry.
          assert (Hy' : In y (flat_map (faces p d) [x])) by (simpl; rewrite app_nil_r; exact Hy).
          apply in_faces in Hy'. destruct Hy' as (x' & [<-|[]] & _ & Hdy & _). apply (dist_inj i y); auto. }
        clear - Hno. induction (faces p d x) as [|y ys IHy]; simpl; [reflexivity|]. rewrite Hno by (left; reflexivity).
        apply IHy. intros z Hz. apply Hno. now right. }
    specialize (Hu objs (incl_refl _) (NoDup_map_inv _ _ (fam_ids _ F))).
    assert (Hone : forall os, NoDup (map o_id os) -> (length (filter (fun o' => Nat.eqb (o_id o') (o_id o)) os) <= 1)%nat).
    { induction os as [|x os IH]; simpl; [lia|]. intros Hnd; inversion Hnd as [|? ? Hx Hnd']; subst.
      destruct (Nat.eqb_spec (o_id x) (o_id o)) as [Hid|]; [|auto]. simpl.
      replace (filter (fun o' => Nat.eqb (o_id o') (o_id o)) os) with (@nil obj); [simpl; lia|].
      symmetry. clear - Hx Hid. induction os as [|y ys IHy]; simpl; [reflexivity|].
      destruct (Nat.eqb_spec (o_id y) (o_id o)); [exfalso; apply Hx; left; congruence|]. apply IHy. intros H; apply Hx. now right. }
    specialize (Hone objs (fam_ids _ F)). lia.
  Qed.

  (** The far side of the interface *)
  Lemma entering_far_side i j rest c : l = i :: j :: rest -> find_container l = Some c -> c <> h_node i ->
    forall t, h_distance i < t < h_distance j -> exists o, innermost objs t o /\ o_id o = h_node i.
  Proof.
    intros E Hc Hne t Ht. destruct (head_face _ _ E) as (o & Ho & Hn & Hd & H0 & Hmin).
    destruct (second_face _ _ _ E) as (_ & _ & _ & _ & _ & Hmin2).
    destruct (container_innermost c Hc) as (oc & (Hoc & Hcc & Hinn) & Hid).
    destruct (fam_order _ F o Ho) as (Hlt & Cl & Ch). pose proof eps_pos as Heps.
    assert (Hnot : ~ contains o 0).
    { intros Hin. destruct (Hinn o Ho Hin) as [_ Hhi]. destruct Hin as [Hlo _].
      assert (h_distance i = o_hi o) by (destruct Hd; [lra|assumption]).
      assert (h_distance i <= o_hi oc) by (apply (Hmin oc); [exact Hoc|now right|apply Hcc]).
      assert (Heq : o_hi oc = o_hi o) by lra.
      assert (oc = o).
      { destruct (Nat.eq_dec (o_id oc) (o_id o)) as [|Hi]; [now apply same_id|].
        assert (Hne' : oc <> o) by congruence. destruct (fam_pairs _ F oc o Hoc Ho Hne') as [_ (_ & D & _)]. contradiction. }
      congruence. }
    assert (Hlo : h_distance i = o_lo o).
    { destruct Hd as [|Hd]; [assumption|exfalso]. unfold contains in Hnot. destruct Cl as [Cl|Cl]; [apply Hnot; lra|].
      assert (h_distance i <= o_lo o) by (apply (Hmin o); [exact Ho|now left|lra]). lra. }
    assert (Hhi : h_distance j <= o_hi o).
    { destruct (Hmin2 o (o_hi o) Ho (or_intror eq_refl)) as [|[_ Hx]]; lra. }
    exists o. split; [|congruence]. split; [exact Ho|]. split; [unfold contains; lra|].
    intros o' Ho' [A B].
    destruct (Nat.eq_dec (o_id o') (o_id o)) as [Hi|Hi]; [rewrite (same_id o' o Ho' Ho Hi); lra|].
    assert (Hne' : o <> o') by congruence. destruct (fam_pairs _ F o o' Ho Ho' Hne') as [Hl (D1 & D2 & D3 & D4)].
    assert (Hl' : o_lo o' < 0).
    { destruct (fam_order _ F o' Ho') as (_ & [|Hx] & _); [assumption|exfalso].
      destruct (Hmin2 o' (o_lo o') Ho' (or_introl eq_refl)) as [|[Hx' _]]; [lra|lra|congruence]. }
    destruct Hl as [H|[H|[[H H']|[H H']]]]; lra.
  Qed.

  Lemma leaving_far_side i j rest : l = i :: j :: rest -> find_container l = Some (h_node i) ->
    forall o, In o objs -> o_id o = h_node j -> forall t, h_distance i < t < h_distance j ->
    (contains o 0 -> innermost objs t o) /\ (~ contains o 0 -> ~ contains o t).
  Proof.
    intros E Hc o Ho Hid t Ht. destruct (head_face _ _ E) as (oi & Hoi & Hni & Hdi & H0i & Hmin).
    destruct (second_face _ _ _ E) as (oj & Hoj & Hnj & Hdj & H0j & Hmin2).
    assert (oj = o) by (apply same_id; auto; congruence). subst oj.
    destruct (container_innermost _ Hc) as (oc & (Hoc & Hcc & Hinn) & Hidc).
    assert (oc = oi) by (apply same_id; auto; congruence). subst oc.
    assert (Hdi' : h_distance i = o_hi oi) by (destruct Hdi; [unfold contains in Hcc; lra|assumption]).
    assert (Hdiff : o_id o <> o_id oi).
    { intros Heq. assert (o = oi) by (now apply same_id). subst o. unfold contains in Hcc. destruct Hdj; lra. }
    destruct (fam_order _ F o Ho) as (Hlt & Cl & Ch). pose proof eps_pos as Heps. split.
    - intros [A B]. assert (Hj : h_distance j = o_hi o) by (destruct Hdj; [lra|assumption]).
      split; [exact Ho|]. split; [unfold contains; lra|]. intros o' Ho' [A' B'].
      destruct (Nat.eq_dec (o_id o') (o_id o)) as [Hi|Hi]; [rewrite (same_id o' o Ho' Ho Hi); lra|].
      assert (Hne' : o <> o') by congruence. destruct (fam_pairs _ F o o' Ho Ho' Hne') as [Hl (D1 & D2 & D3 & D4)].
      assert (Hne2 : o_id o' <> o_id oi).
      { intros Heq. assert (o' = oi) by (now apply same_id). subst o'. lra. }
      assert (Hl' : o_lo o' < 0).
      { destruct (fam_order _ F o' Ho') as (_ & [|Hx] & _); [assumption|exfalso].
        destruct (Hmin2 o' (o_lo o') Ho' (or_introl eq_refl)) as [|[Hx' _]]; [lra|lra|congruence]. }
      assert (Hh' : o_hi o <= o_hi o').
      { destruct (Hmin2 o' (o_hi o') Ho' (or_intror eq_refl)) as [|[Hx' _]]; [lra|lra|congruence]. }
      destruct Hl as [H|[H|[[H H']|[H H']]]]; lra.
    - intros Hn [A B]. apply Hn. split; [|lra]. destruct Cl as [|Cl]; [assumption|exfalso].
      destruct (Hmin2 o (o_lo o) Ho (or_introl eq_refl)) as [|[Hx' _]]; [lra|lra|congruence].
  Qed.
End Fam.

(** ** Budgets *)
Lemma pass_within S ms mp m u count r :
  if Nat.ltb ms count || over_path mp r then
    pass S ms mp m u count r = Stop [] \/ pass S ms mp m u count r = Raise [] \/
    (exists c, pass S ms mp m u count r = Stop [Event KILL r None (Some c) None None None])
  else forall evs, (pass S ms mp m u count r = Stop evs \/ pass S ms mp m u count r = Raise evs \/
          (exists r', pass S ms mp m u count r = Continue evs r')) -> ~ In KILL (kinds evs).
Proof.
  assert (Hs := pass_shape S ms mp m u count r). destruct (_ || _) eqn:E.
  - unfold pass. destruct (next_hit S r); [auto|auto|]. rewrite E. right. right. eauto.
  - intros evs [H|[H|(r' & H)]]; rewrite H in Hs.
    + inversion Hs as [H'|H'|H'|H'|H']; try (simpl; intuition discriminate). exfalso.
      unfold pass in H. destruct (next_hit S r) as [| |h c a D]; [injection H as <-; discriminate|discriminate|].
      rewrite E in H. destruct (Nat.eqb h (root S)); [injection H as <-; discriminate|].
      assert (Ha : forall x, absorb_step S m u c x r = Stop evs -> False).
      { intros x Hx. unfold absorb_step in Hx. cbv zeta in Hx. destruct (coefficients _ _); [|discriminate].
        destruct (select_component _ _); [|discriminate]. destruct (nth_error _ _) as [cm|]; [|discriminate].
        destruct (is_radiative _ _ _); [destruct (emit _ _ _ _ _ _); discriminate|]. injection Hx as <-. discriminate. }
      assert (Hf : surface_step S u h c a D r = Stop evs -> False).
      { intros Hx. pose proof (surface_shape S u h c a D r) as Hy. now rewrite Hx in Hy. }
      destruct (total_attenuation _ _); [|discriminate]. destruct (penetration_depth _ _); [destruct (Rltb _ _)|]; eauto.
    + destruct Hs as [-> | ->]; simpl; intuition discriminate.
    + inversion Hs; simpl; intuition discriminate.
Qed.

Lemma end_ray_app r a b : end_ray r (a ++ b) = end_ray (end_ray r a) b.
Proof. revert r. induction a as [|e a IH]; intros r; simpl; [reflexivity|apply IH]. Qed.

Lemma pass_end S ms mp m u n r evs r' : pass S ms mp m u n r = Continue evs r' -> end_ray r evs = r'.
Proof.
  intros Ep. unfold pass in Ep. destruct (next_hit S r) as [| |h c a D]; try discriminate.
  destruct (_ || _); [discriminate|]. destruct (Nat.eqb _ _); [discriminate|].
  assert (Ha : forall x, absorb_step S m u c x r = Continue evs r' -> end_ray r evs = r').
  { intros x Hx. unfold absorb_step in Hx. cbv zeta in Hx. destruct (coefficients _ _); [|discriminate].
    destruct (select_component _ _); [|discriminate]. destruct (nth_error _ _) as [cm|]; [|discriminate].
    destruct (is_radiative _ _ _); [|discriminate]. destruct (emit _ _ _ _ _ _); [|discriminate].
    injection Hx as <- <-. reflexivity. }
  assert (Hf : surface_step S u h c a D r = Continue evs r' -> end_ray r evs = r').
  { intros Hx. unfold surface_step in Hx. cbv zeta in Hx. destruct (normal_of _ _ _); [|discriminate].
    destruct (s_reflectivity _ _ _ _ _ _); [|discriminate]. destruct (is_reflected _ _).
    - destruct (s_reflected _ _ _ _ _ _); [|discriminate]. injection Hx as <- <-. reflexivity.
    - destruct (s_transmitted _ _ _ _ _ _); [|discriminate]. destruct a; [|discriminate]. injection Hx as <- <-. reflexivity. }
  destruct (total_attenuation _ _); [|discriminate]. destruct (penetration_depth _ _); [destruct (Rltb _ _)|]; eauto.
Qed.

Lemma loop_budget S ms mp m us : forall fuel count r pre e post,
  fst (loop fuel S ms mp m us count r) = pre ++ e :: post ->
  (e_kind e = KILL -> post = [] /\ e_ray e = end_ray r pre /\ ((ms <= count + contacts pre)%nat \/ over_path mp (e_ray e) = true)) /\
  (is_contact (e_kind e) = true -> (count + contacts pre < ms)%nat /\ over_path mp (end_ray r pre) = false).
Proof.
  induction fuel as [|fuel IH]; intros count r pre e post H; [destruct pre; discriminate|]. simpl in H.
  set (u := us (Datatypes.S count)) in *. set (n := Datatypes.S count) in *.
  pose proof (pass_shape S ms mp m u n r) as Hsh. pose proof (pass_within S ms mp m u n r) as Hw.
  assert (Hin : Nat.ltb ms n || over_path mp r = false -> (count < ms)%nat /\ over_path mp r = false).
  { intros Hx. apply orb_false_iff in Hx. destruct Hx as [Hx Hy]. apply Nat.ltb_ge in Hx. unfold n in Hx. split; [lia|exact Hy]. }
  (* events of this pass when it is within the budget *)
  assert (Hpass : forall evs, (forall k, In k (kinds evs) -> k <> KILL) ->
     (interaction (kinds evs) \/ ending (kinds evs) \/ kinds evs = [] \/ kinds evs = [ABSORB]) ->
     (count < ms)%nat /\ over_path mp r = false ->
     forall pre e post, evs = pre ++ e :: post ->
     (e_kind e = KILL -> False) /\ (is_contact (e_kind e) = true -> pre = [])).
  { clear. intros evs Hk Hs Hin pre e post ->. split.
    - intros Hx. apply (Hk KILL); [|reflexivity]. unfold kinds. rewrite map_app. apply in_or_app. right. left. exact Hx.
    - intros Hx. destruct pre as [|e' pre]; [reflexivity|exfalso]. unfold kinds in Hs. rewrite map_app in Hs. simpl in Hs.
      destruct Hs as [Hs|[Hs|[Hs|Hs]]]; try discriminate.
      + remember (e_kind e' :: map e_kind pre ++ e_kind e :: map e_kind post) as L eqn:H. destruct Hs; destruct pre as [|? [|? ?]]; simpl in H; try discriminate; injection H; intros;
          match goal with Q : _ = e_kind e |- _ => rewrite <- Q in Hx; discriminate end.
      + remember (e_kind e' :: map e_kind pre ++ e_kind e :: map e_kind post) as L eqn:H. destruct Hs; destruct pre as [|? [|? ?]]; simpl in H; try discriminate; injection H; intros;
          match goal with Q : _ = e_kind e |- _ => rewrite <- Q in Hx; discriminate end.
      + injection Hs as _ Hs. destruct pre; discriminate. }
  destruct (Nat.ltb ms n || over_path mp r) eqn:Eb.
  - (* beyond the budget *)
    assert (Hb : (ms <= count)%nat \/ over_path mp r = true).
    { apply orb_true_iff in Eb. destruct Eb as [Eb|Eb]; [left|now right]. apply Nat.ltb_lt in Eb. unfold n in Eb. lia. }
    destruct Hw as [Hw|[Hw|(c & Hw)]]; rewrite Hw in H; simpl in H.
    + destruct pre; discriminate.
    + destruct pre; discriminate.
    + destruct pre as [|? pre]; [|injection H as _ H; destruct pre; discriminate]. injection H as <- <-.
      split; [intros _|discriminate]. split; [reflexivity|]. split; [reflexivity|]. unfold contacts. simpl. rewrite Nat.add_0_r. exact Hb.
  - specialize (Hin eq_refl).
    assert (Hgen : forall evs, (forall k, In k (kinds evs) -> k <> KILL) ->
       (interaction (kinds evs) \/ ending (kinds evs) \/ kinds evs = [] \/ kinds evs = [ABSORB]) ->
       forall pre e post, evs = pre ++ e :: post ->
       (e_kind e = KILL -> post = [] /\ e_ray e = end_ray r pre /\ ((ms <= count + contacts pre)%nat \/ over_path mp (e_ray e) = true)) /\
       (is_contact (e_kind e) = true -> (count + contacts pre < ms)%nat /\ over_path mp (end_ray r pre) = false)).
    { intros evs Hk Hs pre' e' post' Heq. destruct (Hpass evs Hk Hs Hin pre' e' post' Heq) as [P1 P2].
      split; [tauto|]. intros Hc. rewrite (P2 Hc). unfold contacts; simpl. rewrite Nat.add_0_r. exact Hin. }
    destruct (pass S ms mp m u n r) as [evs|evs|evs r'] eqn:Ep; simpl in H.
    + apply (Hgen evs) with (post := post); [|tauto|exact H]. intros k Hk ->. exact (Hw evs (or_introl eq_refl) Hk).
    + apply (Hgen evs) with (post := post); [|tauto|exact H]. intros k Hk ->. exact (Hw evs (or_intror (or_introl eq_refl)) Hk).
    + specialize (IH n r'). destruct (loop fuel S ms mp m us n r') as [rest st] eqn:El. simpl in H.
      apply app_eq_app in H. destruct H as (l & [[H1 H2]|[H1 H2]]).
      * destruct l as [|e' l]; simpl in H2.
        { rewrite app_nil_r in H1. subst evs.
          specialize (IH [] e post (eq_sym H2)). simpl in IH. unfold contacts at 1 2 in IH; simpl in IH.
          rewrite Nat.add_0_r in IH.
          assert (contacts pre = 1%nat) by (now apply contacts_interaction).
          assert (Hend : end_ray r pre = r') by (now apply (pass_end S ms mp m u n)).
          rewrite Hend. replace (count + contacts pre)%nat with n by (unfold n; lia). exact IH. }
        { injection H2 as <- ->. pose proof H1 as Hevs. apply (Hgen evs) with (post := l) in H1; [| |tauto].
          - destruct H1 as [_ P2]. split; [|exact P2]. intros Hk. exfalso.
            apply (Hw evs (or_intror (or_intror (ex_intro _ r' eq_refl)))).
            rewrite Hevs. unfold kinds. rewrite map_app. apply in_or_app. right. left. exact Hk.
          - intros k Hk ->. exact (Hw evs (or_intror (or_intror (ex_intro _ r' eq_refl))) Hk). }
      * subst pre. rewrite contacts_app, end_ray_app. assert (Hc1 : contacts evs = 1%nat) by (now apply contacts_interaction).
        rewrite (pass_end S ms mp m u n r evs r' Ep). specialize (IH l e post (eq_sym (eq_sym H2))).
        replace (count + (contacts evs + contacts l))%nat with (n + contacts l)%nat by (unfold n; lia). exact IH.
Qed.
