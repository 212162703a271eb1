(** C152: every random decision of the compiled tracer takes the next number of the ray's own
    stream; no number serves twice. *)
From Coq Require Import Reals Lra Lia Psatz ZArith List Bool Arith.
From Verif Require Import Base Vec Interp DistModel MaterialModel OpticsModel PhaseModel TransformModel GeomModel TracerModel TracerProofs TracerProps
  KernelModel KernelProofs KernelSim KernelProps RngModel RngProps PeriodProps BundleModel LogProps SequenceModel.
Import ListNotations.
Open Scope R_scope.

(** What a number can decide: the depth of absorption, the component, whether it re-emits, the
    direction (two numbers), the wavelength, the delay, and reflection. *)
Inductive purpose := Depth | Comp | Rad | Ph1 | Ph2 | Wl | Tau | Surf.
Definition field (X : purpose) (u : draws) : R :=
  match X with
  | Depth => u_depth u | Comp => u_comp u | Rad => u_rad u | Ph1 => u_ph1 u | Ph2 => u_ph2 u | Wl => u_wl u | Tau => u_tau u | Surf => u_surf u
  end.

(** ** One pass *)
Definition surface_uses (K : kscene) (hit container : nat) (adjacent : option nat) (t0 : R) (r : ray) : list purpose :=
  let r := k_propagate r t0 (k_idx K container) in
  match adjacent with
  | None => []
  | Some a =>
      let nrm := to_vector (k_l2w K hit) (local_normal (k_shape K hit) (to_point (k_w2l K hit) (position r))) in
      match (if k_fresnel K hit then k_fresnel_reflectivity (k_angle nrm (direction r)) (k_idx K container) (k_idx K a) else Some 0) with
      | None => []
      | Some refl => if Rltb 0 refl then [Surf] else []
      end
  end.
Definition absorb_uses (s : nat -> R) (K : kscene) (container : nat) (depth : R) (r : ray) (n : nat) : list purpose :=
  let cs := k_comps K container in
  let r := k_propagate r depth (k_idx K container) in
  Comp ::
  match nth_error cs (k_select (map (fun c => k_coefficient (c_dist (fst c)) (wavelength r)) cs) (s n)) with
  | None => []
  | Some (c, _) =>
      let stay := if Rltb 0 (c_tau_nr c) then [Tau] else [] in
      match c_kind c with
      | Luminophore => Rad :: (if Rltb (s (n + 1)%nat) (c_qy c)
                               then Ph1 :: Ph2 :: match c_ems c with DConst _ => [] | _ => Wl :: (if Rltb 0 (c_tau_rad c) then [Tau] else []) end else stay)
      | Scatterer => Rad :: (if Rltb (s (n + 1)%nat) (c_qy c) then [Ph1; Ph2] else stay)
      | _ => stay
      end
  end.
Definition pass_uses (s : nat -> R) (K : kscene) (maxsteps count : nat) (r : ray) (n : nat) : list purpose :=
  match k_next_hit K (position r) (direction r) with
  | None => []
  | Some (hit, container, adjacent, t0) =>
      if Nat.ltb maxsteps count then [] else if Nat.eqb hit (k_root K) then [] else
      let alpha := k_total (map fst (k_comps K container)) (wavelength r) in
      if Rltb alpha_tol alpha then
        Depth :: (if Rltb (- ln (1 - s n) / alpha) t0 then absorb_uses s K container (- ln (1 - s n) / alpha) r (n + 1)
                  else surface_uses K hit container adjacent t0 r)
      else surface_uses K hit container adjacent t0 r
  end.

Notation count_pass s := (s_pass nat s Datatypes.S).
Notation count_trace s := (s_trace nat s Datatypes.S).

Definition given (s : nat -> R) (n : nat) (l : list purpose) (u : draws) : Prop :=
  forall j X, nth_error l j = Some X -> field X u = s (n + j)%nat.
Lemma given_cons s n X l u : given s n (X :: l) u <-> field X u = s n /\ given s (n + 1) l u.
Proof.
  unfold given. split.
  - intros H. split; [rewrite (H 0%nat X eq_refl); f_equal; lia|]. intros j Y Hj. rewrite (H (Datatypes.S j) Y Hj). f_equal. lia.
  - intros [H1 H2] [|j] Y; cbn; [intros [= <-]; rewrite H1; f_equal; lia|]. intros Hj. rewrite (H2 j Y Hj). f_equal. lia.
Qed.

Lemma surface_same s K hit c a t0 r n u : given s n (surface_uses K hit c a t0 r) u ->
  s_surface nat s Datatypes.S K hit c a t0 r n = (k_surface K u hit c a t0 r, (n + List.length (surface_uses K hit c a t0 r))%nat).
Proof.
  unfold surface_uses, s_surface, k_surface. cbv zeta. destruct a as [a|]; [|intros _; cbn; f_equal; lia].
  destruct (if k_fresnel K hit then _ else _) as [refl|]; [|intros _; cbn; f_equal; lia].
  unfold k_is_reflected, uniform. destruct (Rltb 0 refl) eqn:E0.
  - rewrite given_cons. cbn [field]. intros [-> _]. cbn [List.length]. replace (n + 1)%nat with (Datatypes.S n) by lia.
    destruct (Rltb (s n) refl); [reflexivity|]. destruct (if k_fresnel K hit then _ else _); reflexivity.
  - intros _. cbn [List.length]. replace (n + 0)%nat with n by lia. destruct (Rltb 1 refl); [reflexivity|]. destruct (if k_fresnel K hit then _ else _); reflexivity.
Qed.
Lemma phase_same s ph n : s_phase nat s Datatypes.S ph n = (k_sample_phase ph (s n) (s (Datatypes.S n)), Datatypes.S (Datatypes.S n)).
Proof. destruct ph; cbn; [reflexivity|destruct (Rleb _ _); reflexivity|reflexivity]. Qed.
Lemma absorb_same s K m c x r n u : given s n (absorb_uses s K c x r n) u ->
  s_absorb nat s Datatypes.S K m c x r n = (k_absorb K m u c x r, (n + List.length (absorb_uses s K c x r n))%nat).
Proof.
  unfold absorb_uses, s_absorb, k_absorb, uniform. cbv zeta. rewrite given_cons. cbn [field]. intros [-> Hg].
  destruct (nth_error _ _) as [[cm ph]|]; [|cbn [List.length]; f_equal; lia].
  replace (n + 1)%nat with (Datatypes.S n) in * by lia.
  assert (Dl : forall tau k, (if Rltb 0 tau then u_tau u = s k else True) -> s_delay nat s Datatypes.S tau k = (k_delay tau (u_tau u), (k + if Rltb 0 tau then 1 else 0)%nat)).
  { intros tau k H. unfold s_delay, k_delay, uniform. destruct (Rltb 0 tau); [rewrite H; f_equal; lia|f_equal; lia]. }
  assert (Gt : forall tau k, given s k (if Rltb 0 tau then [Tau] else []) u -> if Rltb 0 tau then u_tau u = s k else True).
  { intros tau k. destruct (Rltb 0 tau); [|auto]. rewrite given_cons. tauto. }
  assert (Lt : forall (b : bool), List.length (if b then [Tau] else []) = if b then 1%nat else 0%nat) by (intros []; reflexivity).
  unfold s_radiative, k_is_radiative, uniform. destruct (c_kind cm) eqn:Ek.
  all: try (apply Gt in Hg; rewrite (Dl _ _ Hg); cbn [List.length]; rewrite Lt; f_equal; lia).
  - apply given_cons in Hg. cbn [field] in Hg. destruct Hg as [-> Hg]. replace (Datatypes.S n + 1)%nat with (Datatypes.S (Datatypes.S n)) in * by lia.
    destruct (Rltb (s (Datatypes.S n)) (c_qy cm)).
    + rewrite phase_same. apply given_cons in Hg. destruct Hg as [h1 Hg]. apply given_cons in Hg. destruct Hg as [h2 Hg]. cbn [field] in *. rewrite h1, h2.
      replace (Datatypes.S (Datatypes.S n) + 1)%nat with (Datatypes.S (Datatypes.S (Datatypes.S n))) in * by lia. cbn [List.length]. f_equal. lia.
    + apply Gt in Hg. rewrite (Dl _ _ Hg). cbn [List.length]. rewrite Lt. f_equal. lia.
  - apply given_cons in Hg. cbn [field] in Hg. destruct Hg as [-> Hg]. replace (Datatypes.S n + 1)%nat with (Datatypes.S (Datatypes.S n)) in * by lia.
    destruct (Rltb (s (Datatypes.S n)) (c_qy cm)).
    + rewrite phase_same. apply given_cons in Hg. destruct Hg as [h1 Hg]. apply given_cons in Hg. destruct Hg as [h2 Hg]. cbn [field] in *. rewrite h1, h2.
      replace (Datatypes.S (Datatypes.S n) + 1)%nat with (Datatypes.S (Datatypes.S (Datatypes.S n))) in * by lia.
      destruct (c_ems cm) as [|? xs ? cdf]; [cbn [List.length]; f_equal; lia|].
      apply given_cons in Hg. destruct Hg as [h3 Hg]. cbn [field] in h3. rewrite h3. apply Gt in Hg.
      replace (Datatypes.S (Datatypes.S (Datatypes.S n)) + 1)%nat with (Datatypes.S (Datatypes.S (Datatypes.S (Datatypes.S n)))) in * by lia.
      replace (Datatypes.S (Datatypes.S (Datatypes.S (Datatypes.S n))) + 1)%nat with (Datatypes.S (Datatypes.S (Datatypes.S (Datatypes.S (Datatypes.S n))))) in * by lia.
      rewrite (Dl _ _ Hg). cbn [List.length]. rewrite Lt. f_equal. lia.
    + apply Gt in Hg. rewrite (Dl _ _ Hg). cbn [List.length]. rewrite Lt. f_equal. lia.
Qed.
Lemma pass_same s K ms m count r n u : given s n (pass_uses s K ms count r n) u ->
  count_pass s K ms m count r n = (k_pass K ms m u count r, (n + List.length (pass_uses s K ms count r n))%nat).
Proof.
  unfold pass_uses, s_pass, k_pass, uniform. destruct (k_next_hit K (position r) (direction r)) as [[[[hit c] a] t0]|]; [|intros _; cbn; f_equal; lia].
  destruct (Nat.ltb ms count); [intros _; cbn [List.length]; f_equal; lia|]. destruct (Nat.eqb hit (k_root K)); [intros _; cbn [List.length]; f_equal; lia|].
  cbv zeta. unfold k_depth. destruct (Rltb alpha_tol _).
  - rewrite given_cons. cbn [field]. intros [-> Hg]. replace (Datatypes.S n) with (n + 1)%nat by lia. destruct (Rltb _ t0).
    + rewrite (absorb_same s K m c _ r (n + 1) u Hg). cbn [List.length]. f_equal. lia.
    + rewrite (surface_same s K hit c a t0 r (n + 1) u Hg). cbn [List.length]. f_equal. lia.
  - intros Hg. now rewrite (surface_same s K hit c a t0 r n u Hg).
Qed.

Ltac distinct := repeat (constructor; [cbn; intuition discriminate|]); constructor.
Lemma surface_nodup K hit c a t0 r : surface_uses K hit c a t0 r = [] \/ surface_uses K hit c a t0 r = [Surf].
Proof. unfold surface_uses. cbv zeta. destruct a; [|auto]. destruct (if k_fresnel K hit then _ else _) as [x|]; [|auto]. destruct (Rltb 0 x); auto. Qed.
Lemma pass_nodup s K ms count r n : NoDup (pass_uses s K ms count r n) /\ (List.length (pass_uses s K ms count r n) <= 7)%nat.
Proof.
  unfold pass_uses. destruct (k_next_hit K (position r) (direction r)) as [[[[hit c] a] t0]|]; [|split; [constructor|cbn; lia]].
  destruct (Nat.ltb ms count); [split; [constructor|cbn; lia]|]. destruct (Nat.eqb hit (k_root K)); [split; [constructor|cbn; lia]|].
  cbv zeta. destruct (Rltb alpha_tol _).
  2: { destruct (surface_nodup K hit c a t0 r) as [-> | ->]; (split; [distinct|cbn; lia]). }
  destruct (Rltb _ t0).
  2: { destruct (surface_nodup K hit c a t0 r) as [-> | ->]; (split; [distinct|cbn; lia]). }
  unfold absorb_uses. cbv zeta. destruct (nth_error _ _) as [[cm ph]|]; [|split; [distinct|cbn; lia]].
  destruct (c_kind cm), (Rltb 0 (c_tau_nr cm)), (Rltb (s (n + 1 + 1)%nat) (c_qy cm)), (c_ems cm), (Rltb 0 (c_tau_rad cm)); split; try distinct; cbn; lia.
Qed.
Lemma pass_over s K ms count r n : (ms < count)%nat -> pass_uses s K ms count r n = [].
Proof.
  intros H. unfold pass_uses. destruct (k_next_hit K (position r) (direction r)) as [[[[hit c] a] t0]|]; [|reflexivity].
  now rewrite (proj2 (Nat.ltb_lt ms count) H).
Qed.

(** Which purpose a number of the pass serves depends on the numbers before it only. *)
Lemma pass_predictable s s' K ms count r n j : (forall i, (i < n + j)%nat -> s' i = s i) ->
  nth_error (pass_uses s' K ms count r n) j = nth_error (pass_uses s K ms count r n) j.
Proof.
  intros H. unfold pass_uses. destruct (k_next_hit K (position r) (direction r)) as [[[[hit c] a] t0]|]; [|reflexivity].
  destruct (Nat.ltb ms count); [reflexivity|]. destruct (Nat.eqb hit (k_root K)); [reflexivity|]. cbv zeta.
  destruct (Rltb alpha_tol _); [|reflexivity]. destruct j as [|j]; [reflexivity|]. cbn [nth_error]. rewrite (H n) by lia.
  destruct (Rltb _ t0); [|reflexivity]. unfold absorb_uses. cbv zeta. destruct j as [|j]; [reflexivity|]. cbn [nth_error]. rewrite (H (n + 1)%nat) by lia.
  destruct (nth_error (k_comps K c) _) as [[cm ph]|]; [|reflexivity].
  destruct (c_kind cm); try reflexivity; (destruct j as [|j]; [reflexivity|]); cbn [nth_error]; rewrite (H (n + 1 + 1)%nat) by lia; reflexivity.
Qed.

(** ** The whole trace *)
Fixpoint loop_uses (fuel : nat) (s : nat -> R) (K : kscene) (budget : option nat) (ms : nat) (m : emit_method)
    (count : nat) (log : list event) (r : ray) (n : nat) : list (nat * purpose) :=
  match fuel with
  | O => []
  | Datatypes.S fuel' =>
      if budget_spent budget log then [] else
      let l := map (pair (Datatypes.S count)) (pass_uses s K ms (Datatypes.S count) r n) in
      match count_pass s K ms m (Datatypes.S count) r n with
      | (KContinue evs ts r', n') => l ++ loop_uses fuel' s K budget ms m (Datatypes.S count) (fold_left (record budget) evs log) r' n'
      | _ => l
      end
  end.

Lemma loop_same s K budget ms m us : forall fuel count log r n,
  (forall k i X, nth_error (loop_uses fuel s K budget ms m count log r n) k = Some (i, X) -> field X (us i) = s (n + k)%nat) ->
  s_loop nat s Datatypes.S fuel K budget ms m count log r n =
  (k_loop fuel K budget ms m us count log r, (n + List.length (loop_uses fuel s K budget ms m count log r n))%nat).
Proof.
  induction fuel as [|fuel IH]; intros count log r n H; [cbn; f_equal; lia|]. cbn [loop_uses s_loop k_loop] in *.
  destruct (budget_spent budget log); [cbn; f_equal; lia|].
  pose proof (pass_same s K ms m (Datatypes.S count) r n (us (Datatypes.S count))) as P.
  set (l := pass_uses s K ms (Datatypes.S count) r n) in *. cbv zeta in H |- *.
  assert (Hl : given s n l (us (Datatypes.S count))).
  { intros j X Hj. apply (H j (Datatypes.S count) X). assert (Q : nth_error (map (pair (Datatypes.S count)) l) j = Some (Datatypes.S count, X)) by now apply map_nth_error.
    destruct (count_pass s K ms m (Datatypes.S count) r n) as [[| |] n']; try exact Q. rewrite nth_error_app1; [exact Q|]. apply nth_error_Some. congruence. }
  rewrite (P Hl) in *. destruct (k_pass K ms m (us (Datatypes.S count)) (Datatypes.S count) r) as [evs ts|evs ts r'|].
  - now rewrite map_length.
  - rewrite (IH (Datatypes.S count) (fold_left (record budget) evs log) r' (n + List.length l)%nat).
    + destruct (k_loop _ _ _ _ _ _ _ _ _) as [[log' ts'] st]. rewrite app_length, map_length. f_equal. lia.
    + intros k i X Hk. rewrite (H (List.length l + k)%nat i X); [f_equal; lia|].
      rewrite nth_error_app2; rewrite map_length; [|lia]. now replace (List.length l + k - List.length l)%nat with k by lia.
  - now rewrite map_length.
Qed.
Lemma uses_later s K budget ms m : forall fuel count log r n i X, In (i, X) (loop_uses fuel s K budget ms m count log r n) -> (count < i)%nat.
Proof.
  induction fuel as [|fuel IH]; intros count log r n i X; [intros []|]. cbn [loop_uses]. destruct (budget_spent budget log); [intros []|]. cbv zeta.
  assert (Q : In (i, X) (map (pair (Datatypes.S count)) (pass_uses s K ms (Datatypes.S count) r n)) -> (count < i)%nat).
  { intros H. apply in_map_iff in H. destruct H as (Y & [= <- _] & _). lia. }
  destruct (count_pass s K ms m (Datatypes.S count) r n) as [[| |] n']; try exact Q. intros H. apply in_app_or in H. destruct H as [H|H]; [auto|].
  apply IH in H. lia.
Qed.
Lemma NoDup_append {A} (l k : list A) : NoDup l -> NoDup k -> (forall x, In x l -> ~ In x k) -> NoDup (l ++ k).
Proof.
  induction l as [|x l IH]; intros H1 H2 H3; [exact H2|]. inversion H1; subst. cbn. constructor.
  - intros H. apply in_app_or in H. destruct H as [H|H]; [contradiction|]. exact (H3 x (or_introl eq_refl) H).
  - apply IH; auto. intros y Hy. apply H3. now right.
Qed.
Lemma uses_nodup s K budget ms m : forall fuel count log r n, NoDup (loop_uses fuel s K budget ms m count log r n).
Proof.
  induction fuel as [|fuel IH]; intros count log r n; [constructor|]. cbn [loop_uses]. destruct (budget_spent budget log); [constructor|]. cbv zeta.
  assert (Q : NoDup (map (pair (Datatypes.S count)) (pass_uses s K ms (Datatypes.S count) r n))).
  { apply FinFun.Injective_map_NoDup; [intros x y [= E]; exact E|]. apply pass_nodup. }
  destruct (count_pass s K ms m (Datatypes.S count) r n) as [[| |] n']; try exact Q. apply NoDup_append; [exact Q|apply IH|].
  intros [i X] H1 H2. apply uses_later in H2. apply in_map_iff in H1. destruct H1 as (Y & [= <- _] & _). lia.
Qed.
Lemma uses_bound s K budget ms m : forall fuel count log r n, (List.length (loop_uses fuel s K budget ms m count log r n) <= 7 * (ms - count))%nat.
Proof.
  induction fuel as [|fuel IH]; intros count log r n; [cbn; lia|]. cbn [loop_uses]. destruct (budget_spent budget log); [cbn; lia|]. cbv zeta.
  destruct (pass_nodup s K ms (Datatypes.S count) r n) as [_ L].
  destruct (le_lt_dec (Datatypes.S count) ms) as [Hc|Hc].
  - destruct (count_pass s K ms m (Datatypes.S count) r n) as [[| |] n']; rewrite ?app_length, map_length; try lia.
    specialize (IH (Datatypes.S count) (fold_left (record budget) evs log) r0 n'). lia.
  - rewrite (pass_over s K ms (Datatypes.S count) r n Hc). cbn [map app].
    destruct (count_pass s K ms m (Datatypes.S count) r n) as [[| |] n']; cbn [List.length]; try lia. etransitivity; [apply IH|]. lia.
Qed.


(** ** Numbers by purpose *)
Definition put (X : purpose) (v : R) (u : draws) : draws :=
  let '(Draws a b c d e f g h x y) := u in
  match X with
  | Depth => Draws v b c d e f g h x y | Comp => Draws a v c d e f g h x y | Rad => Draws a b v d e f g h x y
  | Ph1 => Draws a b c v e f g h x y | Ph2 => Draws a b c d v f g h x y | Wl => Draws a b c d e v g h x y
  | Tau => Draws a b c d e f v h x y | Surf => Draws a b c d e f g v x y
  end.
Lemma put_same X v u : field X (put X v u) = v.
Proof. destruct u, X; reflexivity. Qed.
Lemma put_other X Y v u : X <> Y -> field Y (put X v u) = field Y u.
Proof. destruct u, X, Y; try reflexivity; congruence. Qed.
Lemma put_wf X v u : 0 <= v < 1 -> wf_draws u -> wf_draws (put X v u).
Proof. destruct u, X; unfold wf_draws; cbn; intros Hv H; decompose [and] H; repeat split; lra. Qed.
Lemma purpose_dec : forall X Y : nat * purpose, {X = Y} + {X <> Y}.
Proof. decide equality; [decide equality|apply Nat.eq_dec]. Qed.

(** Numbers can be handed out to the passes as a list of distinct purposes says. *)
Lemma handed_out (s : nat -> R) : forall (l : list (nat * purpose)) n, NoDup l ->
  exists us : nat -> draws, (forall k i X, nth_error l k = Some (i, X) -> field X (us i) = s (n + k)%nat) /\
    ((forall k, 0 <= s k < 1) -> forall i, wf_draws (us i)).
Proof.
  induction l as [|[i X] l IH]; intros n H.
  - exists (fun _ => Draws 0 0 0 0 0 0 0 0 0 0). split; [intros [|k]; discriminate|]. intros _ i. unfold wf_draws; cbn; lra.
  - inversion H as [|? ? Hni Hnd]; subst. destruct (IH (n + 1)%nat Hnd) as (us & H1 & H2).
    exists (fun j => if Nat.eqb j i then put X (s n) (us i) else us j). split.
    + intros [|k] j Y; cbn [nth_error].
      * intros [= <- <-]. rewrite Nat.eqb_refl, put_same. f_equal. lia.
      * intros Hk. replace (n + Datatypes.S k)%nat with (n + 1 + k)%nat by lia. rewrite <- (H1 k j Y Hk). destruct (Nat.eqb_spec j i) as [->|]; [|reflexivity].
        apply put_other. intros ->. apply Hni. exact (nth_error_In _ _ Hk).
    + intros Hs j. destruct (Nat.eqb j i); [apply put_wf; [apply Hs|]|]; now apply H2.
Qed.

Lemma pass_given s K ms count r n : exists u, given s n (pass_uses s K ms count r n) u.
Proof.
  destruct (handed_out s (map (pair 0%nat) (pass_uses s K ms count r n)) n) as (us & H & _).
  - apply FinFun.Injective_map_NoDup; [intros x y [= E]; exact E|]. apply pass_nodup.
  - exists (us 0%nat). intros j X Hj. apply H. now apply map_nth_error.
Qed.
Lemma same_list {A} (l k : list A) : (forall j, (j <= List.length l)%nat -> nth_error k j = nth_error l j) -> k = l.
Proof.
  revert k. induction l as [|x l IH]; intros k H.
  - specialize (H 0%nat (le_n _)). destruct k; [reflexivity|discriminate].
  - destruct k as [|y k]; [specialize (H 0%nat (Nat.le_0_l _)); discriminate|]. pose proof (H 0%nat (Nat.le_0_l _)) as [= ->]. f_equal.
    apply IH. intros j Hj. apply (H (Datatypes.S j)). cbn. lia.
Qed.
Lemma pass_local s s' K ms m count r n : (forall i, (i < n + List.length (pass_uses s K ms count r n))%nat -> s' i = s i) ->
  pass_uses s' K ms count r n = pass_uses s K ms count r n /\ count_pass s' K ms m count r n = count_pass s K ms m count r n.
Proof.
  intros H. assert (E : pass_uses s' K ms count r n = pass_uses s K ms count r n).
  { apply same_list. intros j Hj. apply pass_predictable. intros i Hi. apply H. lia. }
  split; [exact E|]. destruct (pass_given s K ms count r n) as [u Hu]. rewrite (pass_same s K ms m count r n u Hu).
  rewrite <- E. apply pass_same. rewrite E. intros j X Hj. rewrite (Hu j X Hj). symmetry. apply H.
  enough (j < List.length (pass_uses s K ms count r n))%nat by lia. apply nth_error_Some. congruence.
Qed.
Lemma loop_predictable s s' K budget ms m : forall fuel count log r n j, (forall i, (i < n + j)%nat -> s' i = s i) ->
  nth_error (loop_uses fuel s' K budget ms m count log r n) j = nth_error (loop_uses fuel s K budget ms m count log r n) j.
Proof.
  induction fuel as [|fuel IH]; intros count log r n j H; [reflexivity|]. cbn [loop_uses]. destruct (budget_spent budget log); [reflexivity|]. cbv zeta.
  set (l := pass_uses s K ms (Datatypes.S count) r n). set (l' := pass_uses s' K ms (Datatypes.S count) r n).
  destruct (le_lt_dec (List.length l) j) as [Hj|Hj].
  - destruct (pass_local s s' K ms m (Datatypes.S count) r n) as [E1 E2]; [intros i Hi; apply H; fold l in Hi; lia|].
    unfold l'. rewrite E1, E2. fold l. destruct (pass_given s K ms (Datatypes.S count) r n) as [u Hu]. rewrite (pass_same s K ms m (Datatypes.S count) r n u Hu). fold l.
    destruct (k_pass K ms m u (Datatypes.S count) r) as [evs ts|evs ts r'|]; try reflexivity.
    rewrite !nth_error_app2; rewrite map_length; try lia. apply IH. intros i Hi. apply H. lia.
  - assert (E : nth_error l' j = nth_error l j) by (apply pass_predictable; exact H).
    assert (Hj' : (j < List.length l')%nat) by (apply nth_error_Some; rewrite E; apply nth_error_Some; exact Hj).
    assert (Q : nth_error (map (pair (Datatypes.S count)) l') j = nth_error (map (pair (Datatypes.S count)) l) j).
    { destruct (nth_error l j) as [X|] eqn:Ej; [|apply nth_error_None in Ej; lia]. now rewrite (map_nth_error _ _ _ Ej), (map_nth_error _ _ _ E). }
    assert (A1 : forall q, nth_error (map (pair (Datatypes.S count)) l ++ q) j = nth_error (map (pair (Datatypes.S count)) l) j) by (intros q; apply nth_error_app1; now rewrite map_length).
    assert (A2 : forall q, nth_error (map (pair (Datatypes.S count)) l' ++ q) j = nth_error (map (pair (Datatypes.S count)) l') j) by (intros q; apply nth_error_app1; now rewrite map_length).
    destruct (count_pass s' K ms m (Datatypes.S count) r n) as [[| |] ?], (count_pass s K ms m (Datatypes.S count) r n) as [[| |] ?]; rewrite ?A1, ?A2; exact Q.
Qed.

(** ** C152 *)
(** A ray takes the numbers 0, 1, 2, ... of its stream.  [uses s] lists what they are used for -
    the pass of the loop and the purpose: no purpose occurs twice, what number k is used for is
    decided by the numbers before it, and the ray is traced as it is with the numbers handed out
    so (KernelModel.v), whatever stands in the places where none is handed out.  A pass uses at
    most seven numbers, and there are at most [ms] passes that use any. *)
Theorem C152_numbers_used_once : forall fuel K budget ms m r, exists uses : (nat -> R) -> list (nat * purpose), forall s,
  NoDup (uses s) /\ (List.length (uses s) <= 7 * ms)%nat /\
  (forall s' k, (forall j, (j < k)%nat -> s' j = s j) -> nth_error (uses s') k = nth_error (uses s) k) /\
  (forall us, (forall k i X, nth_error (uses s) k = Some (i, X) -> field X (us i) = s k) ->
     count_trace s fuel K budget ms m r 0%nat = (trace_one fuel K budget ms m us r, List.length (uses s))).
Proof.
  intros fuel K budget ms m r. exists (fun s => loop_uses fuel s K budget ms m 0 (record budget [] (Event GENERATE r None None None None None)) r 0). intros s.
  split; [apply uses_nodup|]. split; [etransitivity; [apply uses_bound|lia]|]. split.
  - intros s' k H. apply loop_predictable. exact H.
  - intros us H. unfold s_trace, trace_one. apply loop_same. exact H.
Qed.
Print Assumptions C152_numbers_used_once.

(** Nothing that the numbers of the passes could bring about is out of reach of a stream: for any
    choice of all the numbers there is a stream with which the ray is traced like that. *)
Theorem C152_every_choice_possible : forall fuel K budget ms m r us, exists s,
  fst (count_trace s fuel K budget ms m r 0%nat) = trace_one fuel K budget ms m us r.
Proof.
  intros fuel K budget ms m r us. destruct (C152_numbers_used_once fuel K budget ms m r) as [uses H].
  assert (G : forall n, exists s, forall k i X, (k < n)%nat -> nth_error (uses s) k = Some (i, X) -> field X (us i) = s k).
  { induction n as [|n [s IH]]; [exists (fun _ => 0); intros; lia|].
    set (s' := fun k => if Nat.eqb k n then match nth_error (uses s) n with Some (i, X) => field X (us i) | None => 0 end else s k).
    assert (Ag : forall j, (j < n)%nat -> s' j = s j) by (intros j Hj; unfold s'; destruct (Nat.eqb_spec j n); [lia|reflexivity]).
    exists s'. intros k i X Hk Hu. destruct (H s) as (_ & _ & P & _).
    rewrite (P s' k) in Hu by (intros j Hj; apply Ag; lia). destruct (Nat.eq_dec k n) as [->|Hn].
    - unfold s'. now rewrite Nat.eqb_refl, Hu.
    - rewrite Ag by lia. apply IH; [lia|exact Hu]. }
  destruct (G (7 * ms)%nat) as [s Hs]. exists s. destruct (H s) as (_ & L & _ & T). rewrite (T us); [reflexivity|].
  intros k i X Hk. apply Hs; [|exact Hk]. enough (k < List.length (uses s))%nat by lia. apply nth_error_Some. congruence.
Qed.
Print Assumptions C152_every_choice_possible.

(** ** The generator *)
Section Gen.
Variables (G : Type) (draw : G -> R) (next : G -> G) (f : nat -> G) (s : nat -> R).
Hypothesis draw_f : forall n, draw (f n) = s n.
Hypothesis next_f : forall n, next (f n) = f (Datatypes.S n).

Lemma gen_surface K h c a t r n : s_surface G draw next K h c a t r (f n) = let '(o, n') := s_surface nat s Datatypes.S K h c a t r n in (o, f n').
Proof.
  unfold s_surface, uniform. cbv zeta. destruct a as [a|]; [|reflexivity]. destruct (if k_fresnel K h then _ else _) as [refl|]; [|reflexivity].
  rewrite draw_f, next_f. destruct (Rltb 0 refl); (destruct (Rltb _ refl); [reflexivity|]); destruct (if k_fresnel K h then _ else _); reflexivity.
Qed.
Lemma gen_phase ph n : s_phase G draw next ph (f n) = let '(o, n') := s_phase nat s Datatypes.S ph n in (o, f n').
Proof. unfold s_phase, uniform. destruct ph; [|destruct (Rleb _ _)|]; rewrite !next_f, !draw_f; reflexivity. Qed.
Lemma gen_delay tau n : s_delay G draw next tau (f n) = let '(o, n') := s_delay nat s Datatypes.S tau n in (o, f n').
Proof. unfold s_delay, uniform. rewrite next_f, draw_f. destruct (Rltb 0 tau); reflexivity. Qed.
Lemma gen_radiative k q n : s_radiative G draw next k q (f n) = let '(o, n') := s_radiative nat s Datatypes.S k q n in (o, f n').
Proof. unfold s_radiative, uniform. rewrite next_f, draw_f. destruct k; reflexivity. Qed.
Lemma gen_absorb K m c x r n : s_absorb G draw next K m c x r (f n) = let '(o, n') := s_absorb nat s Datatypes.S K m c x r n in (o, f n').
Proof.
  unfold s_absorb, uniform. cbv zeta. rewrite draw_f, next_f. destruct (nth_error _ _) as [[cm ph]|]; [|reflexivity]. rewrite gen_radiative.
  destruct (s_radiative nat s Datatypes.S (c_kind cm) (c_qy cm) (Datatypes.S n)) as [b n1]. destruct b.
  - rewrite gen_phase. destruct (s_phase nat s Datatypes.S ph n1) as [d n2]. destruct (c_kind cm); try reflexivity. destruct (c_ems cm); [reflexivity|].
    rewrite draw_f, next_f, gen_delay. destruct (s_delay _ _ _ _ _) as [dt n3]. reflexivity.
  - rewrite gen_delay. destruct (s_delay _ _ _ _ _) as [dt n3]. destruct (c_kind cm); reflexivity.
Qed.
Lemma gen_pass K ms m count r n : s_pass G draw next K ms m count r (f n) = let '(o, n') := s_pass nat s Datatypes.S K ms m count r n in (o, f n').
Proof.
  unfold s_pass, uniform. destruct (k_next_hit K (position r) (direction r)) as [[[[hit c] a] t0]|]; [|reflexivity].
  destruct (Nat.ltb ms count); [reflexivity|]. destruct (Nat.eqb hit (k_root K)); [reflexivity|]. cbv zeta. rewrite draw_f, next_f.
  destruct (Rltb alpha_tol _); [|apply gen_surface]. destruct (Rltb _ t0); [apply gen_absorb|apply gen_surface].
Qed.
Lemma gen_loop K budget ms m : forall fuel count log r n,
  s_loop G draw next fuel K budget ms m count log r (f n) = let '(o, n') := s_loop nat s Datatypes.S fuel K budget ms m count log r n in (o, f n').
Proof.
  induction fuel as [|fuel IH]; intros count log r n; [reflexivity|]. cbn [s_loop]. destruct (budget_spent budget log); [reflexivity|].
  rewrite gen_pass. destruct (s_pass nat s Datatypes.S K ms m (Datatypes.S count) r n) as [[evs ts|evs ts r'|] n']; try reflexivity.
  rewrite IH. destruct (s_loop nat s Datatypes.S fuel K budget ms m (Datatypes.S count) (fold_left (record budget) evs log) r' n') as [[[? ?] ?] ?]. reflexivity.
Qed.
End Gen.

Lemma after_next k : forall g, rng_after (Datatypes.S k) g = rng_next (rng_after k g).
Proof. induction k as [|k IH]; intros g; [reflexivity|]. change (rng_after (Datatypes.S (Datatypes.S k)) g) with (rng_after (Datatypes.S k) (rng_next g)). now rewrite IH. Qed.

(** The compiled engine: ray [i] of a run is traced with numbers of its generator in [0, 1), number
    k of the stream for the k-th purpose of a list without repetition.  The states of the generator
    behind them are all different. *)
Theorem C152_seeded_ray : forall fuel K budget ms m seed i r, exists us uses,
  let g := rng_seed (ray_seed seed i) in
  trace_seeded fuel K budget ms m (ray_seed seed i) r = trace_one fuel K budget ms m us r /\
  (forall k, wf_draws (us k)) /\ NoDup uses /\ (List.length uses <= 7 * ms)%nat /\
  (forall k p X, nth_error uses k = Some (p, X) -> field X (us p) = nth_draw k g) /\
  ((7 * Z.of_nat ms < 2 ^ 256)%Z -> forall j k, (j < k < List.length uses)%nat -> rng_after j g <> rng_after k g).
Proof.
  intros fuel K budget ms m seed i r. set (g := rng_seed (ray_seed seed i)). set (s := fun k => nth_draw k g).
  destruct (C152_numbers_used_once fuel K budget ms m r) as [uses H]. destruct (H s) as (Nd & L & _ & T).
  destruct (handed_out s (uses s) 0 Nd) as (us & H1 & H2). exists us, (uses s). cbv zeta. fold g.
  assert (E : trace_seeded fuel K budget ms m (ray_seed seed i) r = trace_one fuel K budget ms m us r).
  { unfold trace_seeded, s_trace. fold g. change g with (rng_after 0 g) at 1.
    rewrite (gen_loop rng rng_draw rng_next (fun k => rng_after k g) s); [|reflexivity|intros n; symmetry; apply after_next].
    specialize (T us H1). unfold s_trace in T. rewrite T. reflexivity. }
  split; [exact E|]. split; [exact (H2 (fun k => proj1 (C14_draws_in_unit_interval seed i k)))|]. split; [exact Nd|]. split; [exact L|]. split; [exact H1|].
  intros Hm j k Hjk Ec. apply C128_period in Ec. apply Z.divide_pos_le in Ec; lia.
Qed.
Print Assumptions C152_seeded_ray.

(** A ray scattered once in a fog takes five numbers: the depth, the component, whether it is
    re-emitted and the two angles. *)
Example C152_example :
  exists ts st, count_trace (fun _ => 1/2) 1 k_fog (Some 9%nat) 7 KT start 0%nat =
                (fst (fst (fst (count_trace (fun _ => 1/2) 1 k_fog (Some 9%nat) 7 KT start 0%nat))), ts, st, 5%nat) /\
  kinds (fst (fst (fst (count_trace (fun _ => 1/2) 1 k_fog (Some 9%nat) 7 KT start 0%nat)))) = [GENERATE; ABSORB; SCATTER].
Proof.
  assert (P : exists evs ts r', count_pass (fun _ => 1/2) k_fog 7 KT 1%nat start 0%nat = (KContinue evs ts r', 5%nat) /\ kinds evs = [ABSORB; SCATTER] /\ length evs = 2%nat).
  { unfold s_pass. change (position start) with (V 0 0 0). change (direction start) with (V 1 0 0). rewrite k_fog_hit.
    cbn [Nat.ltb Nat.leb Nat.eqb k_root k_fog k_comps map fst]. cbv zeta.
    change (k_total [fog] (wavelength start)) with (0 + 1). rewrite (proj2 (Rltb_true alpha_tol (0 + 1))) by (unfold alpha_tol; lra).
    cbv beta delta [uniform] iota. assert (Hl : - ln (1 - 1/2) / (0 + 1) < 1).
    { replace (1 - 1/2) with (/ 2) by lra. rewrite ln_Rinv by lra. pose proof (exp_ineq1 1 ltac:(lra)) as He1.
      assert (ln 2 < ln (exp 1)) by (apply ln_increasing; lra). rewrite ln_exp in *. unfold Rdiv. rewrite Rplus_0_l, Rinv_1. lra. }
    rewrite (proj2 (Rltb_true _ 1) Hl).
    assert (E : k_select [1] (1/2) = 0%nat).
    { unfold k_select, k_select_from, rsum, fold_right. now rewrite (proj2 (Rleb_true _ _)) by lra. }
    unfold s_absorb, uniform. cbv zeta. cbn [k_comps k_fog map fst]. change (k_coefficient (c_dist fog) _) with 1. rewrite E.
    cbn [nth_error]. unfold s_radiative, uniform. cbn [c_kind c_qy fog].
    rewrite (proj2 (Rltb_true (1/2) 1)) by lra. do 3 eexists. split; [reflexivity|split; reflexivity]. }
  destruct P as (evs & ts & r' & P & Hk & Hl). unfold s_trace. cbn [record length Nat.leb app s_loop budget_spent Nat.add].
  rewrite P. destruct evs as [|a [|b [|c evs]]]; try discriminate Hl.
  cbn. do 2 eexists. split; [reflexivity|]. unfold kinds in *. cbn in *. now injection Hk as -> ->.
Qed.
