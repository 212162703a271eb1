(** C112 - C115: constructing components and their spectra. *)
From Coq Require Import Reals Lra Lia ZArith List Bool.
From Verif Require Import Base Interp DistModel DistSpec DistProofs DistProps ComponentModel.
Import ListNotations.
Open Scope R_scope.

(** ** Tables *)
Lemma increasing_tail a l : increasing (a :: l) -> increasing l.
Proof. destruct l; simpl; tauto. Qed.
Lemma increasing_hd_le a l x : increasing (a :: l) -> In x (a :: l) -> a <= x.
Proof.
  revert a. induction l as [|b l IH]; intros a H [ -> | Hx ]; try lra; [destruct Hx|].
  destruct H as [H1 H2]. specialize (IH b H2 Hx). lra.
Qed.
Lemma increasing_le_last a l x : increasing (a :: l) -> In x (a :: l) -> x <= last (a :: l) 0.
Proof.
  revert a x. induction l as [|b l IH]; intros a x H Hx; [destruct Hx as [ -> | [] ]; simpl; lra|].
  change (last (a :: b :: l) 0) with (last (b :: l) 0). destruct H as [H1 H2]. destruct Hx as [ <- | Hx ]; [|now apply IH].
  specialize (IH b b H2 (or_introl eq_refl)). lra.
Qed.
Lemma mk_ascending xs ys h d : mk_dist xs ys h = MkOk d \/ mk_dist xs ys h = MkNanCdf -> increasing xs /\ ys <> [] /\ Forall (fun y => 0 <= y) ys.
Proof.
  unfold mk_dist. destruct (ascending xs) eqn:A; [|intros [H|H]; discriminate]. cbn [negb]. apply ascending_increasing in A. destruct ys as [|y0 yr]; [intros [H|H]; discriminate|].
  destruct (existsb _ _) eqn:E; [intros [H|H]; discriminate|]. intros _. split; [exact A|]. split; [discriminate|]. apply Forall_forall. intros y Hy.
  destruct (Rle_lt_dec 0 y) as [L|L]; [exact L|]. exfalso. assert (T : existsb (fun y => Rltb y 0) (y0 :: yr) = true) by (apply existsb_exists; exists y; split; [exact Hy|now apply Rltb_true]).
  rewrite T in E. discriminate.
Qed.
Lemma distribution_inv xs ys h d : length xs = length ys -> distribution xs ys h = Made d ->
  exists cdf, d = DTable h xs ys cdf /\ increasing xs /\ ys <> [] /\ Forall (fun y => 0 <= y) ys.
Proof.
  intros L H. unfold distribution in H. destruct (mk_dist xs ys h) as [d'| | |] eqn:E; try discriminate; injection H as <-.
  - pose proof (mk_ascending xs ys h d' (or_introl E)) as K. destruct h.
    + destruct (C29_hist_cdf_ends_at_one _ _ _ L E) as (cdf & -> & _). exists cdf. tauto.
    + destruct (C29_cdf_is_proper _ _ _ L E) as (cdf & -> & _). exists cdf. tauto.
  - pose proof (mk_ascending xs ys h (DConst 0) (or_intror E)) as K. exists []. tauto.
Qed.

Lemma searchsorted_below xs x : xs <> [] -> x <= last xs 0 -> (searchsorted xs x < length xs)%nat.
Proof.
  induction xs as [|a xs IH]; intros Ne H; [contradiction|]. cbn [searchsorted length]. destruct (Rltb a x) eqn:E; [|lia].
  destruct xs as [|b xs]; [apply Rltb_true in E; simpl in H; lra|]. specialize (IH ltac:(discriminate) H). lia.
Qed.
Lemma interp_from_nonneg k0 r x : 0 <= snd k0 -> Forall (fun k => 0 <= snd k) r -> fst k0 <= x -> 0 <= interp_from k0 r x.
Proof.
  revert k0. induction r as [|k1 r IH]; intros k0 H0 Hr Hx; [exact H0|]. cbn [interp_from]. apply Forall_cons_iff in Hr as [H1 Hr].
  destruct (Rltb_spec x (fst k1)); [|apply IH; [assumption|assumption|lra]].
  assert (D : 0 < fst k1 - fst k0) by lra. set (t := (x - fst k0) / (fst k1 - fst k0)).
  assert (Ht : 0 <= t <= 1).
  { unfold t. split; [apply Rmult_le_pos; [lra|apply Rlt_le, Rinv_0_lt_compat; lra]|]. apply Rmult_le_reg_r with (fst k1 - fst k0); [exact D|]. unfold Rdiv. rewrite Rmult_assoc, Rinv_l by lra. lra. }
  replace (snd k0 + (snd k1 - snd k0) / (fst k1 - fst k0) * (x - fst k0)) with (snd k0 * (1 - t) + snd k1 * t) by (unfold t; field; lra).
  clearbody t. assert (0 <= snd k0 * (1 - t)) by (apply Rmult_le_pos; lra). assert (0 <= snd k1 * t) by (apply Rmult_le_pos; lra). lra.
Qed.
Lemma allinrange_true x lo hi : lo <= x <= hi -> allinrange x lo hi = true.
Proof. intros [A B]. unfold allinrange. rewrite (proj2 (Rltb_false x lo)), (proj2 (Rltb_false hi x)) by lra. reflexivity. Qed.
Lemma last_combine xs : forall ys (k0 : R * R), length xs = length ys -> xs <> [] -> fst (last (combine xs ys) k0) = last xs 0.
Proof.
  induction xs as [|a xs IH]; intros [|b ys] k0 L Ne; try discriminate; [contradiction|]. destruct xs as [|a' xs].
  - destruct ys; [reflexivity|discriminate].
  - destruct ys as [|b' ys]; [discriminate|]. change (fst (last (combine (a' :: xs) (b' :: ys)) k0) = last (a' :: xs) 0).
    apply IH; [simpl in L |- *; lia|discriminate].
Qed.
Lemma table_usable h xs ys cdf w : length xs = length ys -> ys <> [] -> Forall (fun y => 0 <= y) ys -> hd 0 xs <= w <= last xs 0 ->
  exists a, dist_call (DTable h xs ys cdf) w = Some a /\ 0 <= a.
Proof.
  intros L Ne F Hw. unfold dist_call, x_min, x_max. rewrite allinrange_true by exact Hw. cbn [negb].
  assert (Nx : xs <> []) by (destruct xs; [destruct ys; [contradiction|discriminate]|discriminate]). destruct h.
  - pose proof (searchsorted_below xs w Nx ltac:(lra)) as S. rewrite L in S. destruct (nth_error ys (searchsorted xs w)) as [a|] eqn:E; [|apply nth_error_None in E; lia].
    exists a. split; [reflexivity|]. rewrite Forall_forall in F. eapply F, nth_error_In, E.
  - destruct xs as [|x0 xs]; [contradiction|]. destruct ys as [|y0 ys]; [contradiction|]. pose proof (last_combine (x0 :: xs) (y0 :: ys) (x0, y0) L Nx) as E.
    cbn [combine np_interp fst] in *. rewrite (proj2 (Rltb_false w x0)) by (simpl in Hw; lra). rewrite E, (proj2 (Rltb_false (last (x0 :: xs) 0) w)) by lra.
    eexists. split; [reflexivity|]. apply Forall_cons_iff in F as [F0 F]. apply interp_from_nonneg; [exact F0| |simpl in *; lra].
    apply Forall_forall. intros [k v] Hk. apply in_combine_r in Hk. rewrite Forall_forall in F. now apply F.
Qed.
(** the value at a knot is the ordinate of the knot *)
Lemma interp_from_knot xs : forall ys x0 y0 k x y, increasing (x0 :: xs) -> length xs = length ys ->
  nth_error (x0 :: xs) k = Some x -> nth_error (y0 :: ys) k = Some y -> interp_from (x0, y0) (combine xs ys) x = y.
Proof.
  induction xs as [|x1 xs IH]; intros [|y1 ys] x0 y0 k x y I L Hx Hy; try discriminate.
  - destruct k as [|[|k]]; cbn in Hx, Hy; try discriminate. injection Hx as <-. injection Hy as <-. reflexivity.
  - cbn [combine interp_from fst snd]. destruct I as [I1 I2]. destruct k as [|k].
    + cbn in Hx, Hy. injection Hx as <-. injection Hy as <-. rewrite (proj2 (Rltb_true x0 x1)) by lra. field. lra.
    + cbn [nth_error] in Hx, Hy. pose proof (increasing_hd_le _ _ _ I2 (nth_error_In _ _ Hx)). rewrite (proj2 (Rltb_false x x1)) by lra.
      apply (IH ys x1 y1 k x y I2); [simpl in L; lia|exact Hx|exact Hy].
Qed.
Lemma searchsorted_knot xs : forall k x, increasing xs -> nth_error xs k = Some x -> searchsorted xs x = k.
Proof.
  induction xs as [|a xs IH]; intros k x I H; [destruct k; discriminate|]. cbn [searchsorted]. destruct k as [|k].
  - cbn in H. injection H as <-. rewrite (proj2 (Rltb_false a a)) by lra. reflexivity.
  - cbn in H. destruct xs as [|b xs]; [destruct k; discriminate|]. destruct I as [I1 I2]. pose proof (increasing_hd_le _ _ _ I2 (nth_error_In _ _ H)).
    rewrite (proj2 (Rltb_true a x)) by lra. f_equal. now apply IH.
Qed.
Lemma table_knot h xs ys cdf k x y : length xs = length ys -> increasing xs -> nth_error xs k = Some x -> nth_error ys k = Some y ->
  dist_call (DTable h xs ys cdf) x = Some y.
Proof.
  intros L I Hx Hy. destruct xs as [|x0 xs]; [destruct k; discriminate|]. destruct ys as [|y0 ys]; [discriminate|].
  pose proof (increasing_hd_le _ _ _ I (nth_error_In _ _ Hx)) as A. pose proof (increasing_le_last _ _ _ I (nth_error_In _ _ Hx)) as B.
  unfold dist_call, x_min, x_max. rewrite allinrange_true by (cbn [hd]; lra). cbn [negb]. destruct h.
  - rewrite (searchsorted_knot _ _ _ I Hx). exact Hy.
  - pose proof (last_combine (x0 :: xs) (y0 :: ys) (x0, y0) L ltac:(discriminate)) as E. cbn [combine np_interp fst] in *.
    rewrite (proj2 (Rltb_false x x0)) by lra. rewrite E, (proj2 (Rltb_false (last (x0 :: xs) 0) x)) by lra. f_equal.
    apply (interp_from_knot xs ys x0 y0 k x y I); [simpl in L; lia|exact Hx|exact Hy].
Qed.

(** ** from_functions *)
(** the sum of the values of the functions, with 0 for values that are not finite *)
Fixpoint total (items : list item) (x : R) : R :=
  match items with [] => 0 | Fn f :: rest => (match f x with Fin v => v | _ => 0 end) + total rest x | Num _ :: rest => total rest x end.
Lemma add_functions_ok xs : forall items ys, length xs = length ys -> (forall y, ~ In (Num y) items) ->
  add_functions xs items ys = Made (map (fun '(x, y) => y + total items x) (combine xs ys)).
Proof.
  intros items. induction items as [|[f|v] items IH]; intros ys L N; cbn [add_functions].
  - f_equal. clear N. revert ys L. induction xs as [|x xs IHx]; intros [|y ys] L; try discriminate; [reflexivity|]. cbn. rewrite <- IHx by (simpl in L; lia). f_equal. cbn. ring.
  - rewrite IH; [|rewrite map_length, combine_length; lia|intros y H; exact (N y (or_intror H))]. f_equal. clear IH N.
    revert ys L. induction xs as [|x xs IHx]; intros [|y ys] L; try discriminate; [reflexivity|]. cbn [combine map]. f_equal; [|apply IHx; simpl in L; lia].
    cbn [total]. destruct (f x); cbn; ring.
  - exfalso. exact (N v (or_introl eq_refl)).
Qed.
Lemma add_functions_type xs items : forall ys y, In (Num y) items -> add_functions xs items ys = TypeError.
Proof. induction items as [|[f|v] items IH]; intros ys y H; [destruct H| |reflexivity]. cbn. apply (IH _ y). destruct H as [H|H]; [discriminate|exact H]. Qed.
Lemma zero_combine (f : R -> R) xs : map (fun '(x, y) => y + f x) (combine xs (map (fun _ => 0) xs)) = map f xs.
Proof. induction xs as [|x xs IH]; [reflexivity|]. cbn. rewrite IH. f_equal. ring. Qed.
Lemma from_functions_ok xs items hist : (forall y, ~ In (Num y) items) -> from_functions (Some xs) items hist = distribution xs (map (total items) xs) hist.
Proof. intros N. cbn [from_functions]. rewrite add_functions_ok by (rewrite ?map_length; auto). now rewrite zero_combine. Qed.

(** ** C112 *)
(** the wavelengths at which a component has a coefficient *)
Definition in_range (d : dist) (w : R) : Prop := match d with DConst _ => True | DTable _ xs _ _ => hd 0 xs <= w <= last xs 0 end.
Theorem C112_usable_partial : forall c x hist d, abs_dist c x hist = Made d ->
  (forall n, c <> CInt n) -> (forall y, c = CFloat y -> 0 <= y) ->
  exists t, d = Some t /\ forall w, in_range t w -> exists a, coefficient_at d w = Some a /\ 0 <= a.
Proof.
  assert (T : forall xs ys hist t, length xs = length ys -> distribution xs ys hist = Made t -> forall w, in_range t w -> exists a, dist_call t w = Some a /\ 0 <= a).
  { intros xs ys hist t L H w Hw. destruct (distribution_inv _ _ _ _ L H) as (cdf & -> & _ & Ne & F). now apply table_usable. }
  intros c x hist d H Ni Nf. destruct c as [|n|y|rows|items]; cbn in H.
  - discriminate.
  - exfalso. now apply (Ni n).
  - injection H as <-. exists (DConst y). split; [reflexivity|]. intros w _. exists y. split; [reflexivity|now apply Nf].
  - destruct (distribution (map fst rows) (map snd rows) hist) as [t| | |] eqn:E; try discriminate. injection H as <-. exists t. split; [reflexivity|]. intros w Hw.
    refine (T _ _ _ _ _ E w Hw). now rewrite !map_length.
  - destruct x as [xs|]; [|discriminate].
    destruct (Exists_dec (fun i => exists y, i = Num y) items) as [Ex|Ex]; [intros [f|y]; [right; intros [y Hy]; discriminate|left; eauto]| |].
    + apply Exists_exists in Ex as (i & Hi & y & ->). cbn in H. rewrite (add_functions_type _ _ _ y Hi) in H. discriminate.
    + assert (N : forall y, ~ In (Num y) items) by (intros y Hy; apply Ex, Exists_exists; exists (Num y); eauto).
      rewrite from_functions_ok in H by exact N. destruct (distribution xs (map (total items) xs) hist) as [t| | |] eqn:E; try discriminate. injection H as <-.
      exists t. split; [reflexivity|]. intros w Hw. refine (T _ _ _ _ _ E w Hw). now rewrite map_length.
Qed.
Print Assumptions C112_usable_partial.
(** Absorber(1) is constructed but can never be asked for its coefficient; Absorber(-1.0) has a
    negative one. *)
Theorem C112_usable_refuted :
  (exists c x hist d, abs_dist c x hist = Made d /\ forall w, coefficient_at d w = None) /\
  (exists c x hist d, abs_dist c x hist = Made d /\ forall w, exists a, coefficient_at d w = Some a /\ a < 0).
Proof.
  split.
  - exists (CInt 1), None, false, None. split; reflexivity.
  - exists (CFloat (-1)), None, false, (Some (DConst (-1))). split; [reflexivity|]. intros w. exists (-1). split; [reflexivity|lra].
Qed.
Print Assumptions C112_usable_refuted.
Example C112_example : exists d, abs_dist (CArray [(400, 1); (500, 3)]) None false = Made d /\ coefficient_at d 450 = Some 2.
Proof.
  destruct (C29_valid_spectrum_accepted [400; 500] [1; 3]) as [d E]; [reflexivity|simpl; lia|simpl; lra|repeat constructor; lra|unfold rsum; simpl; lra|].
  destruct (C29_cdf_is_proper [400; 500] [1; 3] d eq_refl E) as (cdf & -> & _).
  cbn [abs_dist map fst snd]. unfold distribution. rewrite E. eexists. split; [reflexivity|].
  cbn. unfold allinrange, x_min, x_max. cbn. rewrite !(proj2 (Rltb_false 450 400)), !(proj2 (Rltb_false 500 450)) by lra. cbn.
  rewrite (proj2 (Rltb_true 450 500)) by lra. f_equal. field.
Qed.

(** ** C113 *)
Theorem C113_functions_summed_partial : forall xs items hist d, (forall y, ~ In (Num y) items) -> from_functions (Some xs) items hist = Made d ->
  forall k x, nth_error xs k = Some x -> dist_call d x = Some (total items x).
Proof.
  intros xs items hist d N H k x Hx. rewrite from_functions_ok in H by exact N.
  destruct (distribution_inv xs (map (total items) xs) _ _ ltac:(now rewrite map_length) H) as (cdf & -> & I & _).
  apply (table_knot _ _ _ _ k); [now rewrite map_length|exact I|exact Hx|now apply map_nth_error].
Qed.
Print Assumptions C113_functions_summed_partial.
(** The documented Scatterer(y, x=x) with lists of numbers raises TypeError (whatever the data). *)
Theorem C113_documented_lists_refuted : exists xs ys, increasing xs /\ length xs = length ys /\ (2 <= length xs)%nat /\ Forall (fun y => 0 < y) ys /\
  forall hist, abs_dist (CList (map Num ys)) (Some xs) hist = TypeError.
Proof.
  exists [400; 500], [1; 2]. split; [simpl; lra|]. split; [reflexivity|]. split; [simpl; lia|]. split; [repeat constructor; lra|]. intros hist. reflexivity.
Qed.
Print Assumptions C113_documented_lists_refuted.
(** The default emission: with wavelengths, a distribution that can be sampled at every draw. *)
Theorem C113_default_emission_partial : forall xs, increasing xs -> (2 <= length xs)%nat ->
  exists ys cdf, ems_dist ENone (Some xs) false = Made (DTable false xs ys cdf) /\ increasing cdf /\
    (forall k x, nth_error xs k = Some x -> exists y, nth_error ys k = Some y /\ 0 < y <= 1 /\ (y = 1 <-> x = 600)).
Proof.
  intros xs I L. cbn [ems_dist]. rewrite from_functions_ok by (intros y [H|[]]; discriminate).
  set (g := total _). assert (G : forall x, g x = exp (- (((600 - x) / 40) * ((600 - x) / 40)))) by (intros x; unfold g; cbn [total]; unfold gaussian; ring).
  destruct (C31_positive_spectrum_has_increasing_cdf xs (map g xs)) as (cdf & E & C); try assumption.
  { now rewrite map_length. }
  { apply Forall_forall. intros y Hy. apply in_map_iff in Hy as (x & <- & _). rewrite G. apply exp_pos. }
  exists (map g xs), cdf. unfold distribution. rewrite E. split; [reflexivity|]. split; [exact C|]. intros k x Hx. exists (g x). split; [now apply map_nth_error|].
  rewrite G. set (t := (600 - x) / 40). assert (0 <= t * t) by apply Rle_0_sqr. split; [split; [apply exp_pos|]|split].
  - rewrite <- exp_0. destruct H as [H|H]; [apply Rlt_le, exp_increasing; lra|rewrite <- H, Ropp_0; lra].
  - intros E1. destruct H as [H|H]; [assert (exp (- (t * t)) < exp 0) by (apply exp_increasing; lra); rewrite exp_0 in *; lra|].
    symmetry in H. apply Rmult_integral in H. assert (t = 0) by tauto. unfold t in H0. lra.
  - intros ->. unfold t. replace ((600 - 600) / 40 * ((600 - 600) / 40)) with 0 by field. rewrite Ropp_0. apply exp_0.
Qed.
Print Assumptions C113_default_emission_partial.
(** An accepted emission is a table of the same kind: the rows of an array, or the sum of the
    functions at the wavelengths, with no negative value.  Numbers and other types are refused. *)
Theorem C113_emission_tabulated : forall e x hist d, ems_dist e x hist = Made d ->
  exists xs ys cdf, d = DTable hist xs ys cdf /\ increasing xs /\ length xs = length ys /\ Forall (fun y => 0 <= y) ys /\
    match e with
    | ENone => x = Some xs /\ ys = map (fun x => exp (- (((600 - x) / 40) * ((600 - x) / 40)))) xs
    | EArray rows => combine xs ys = rows
    | EList items => x = Some xs /\ (forall y, ~ In (Num y) items) /\ ys = map (total items) xs
    | EOther => False
    end.
Proof.
  intros e x hist d H. destruct e as [|rows|items|]; cbn [ems_dist] in H.
  - destruct x as [xs|]; [|discriminate]. rewrite from_functions_ok in H by (intros y [E|[]]; discriminate).
    pose proof (fun L => distribution_inv _ _ _ _ L H) as D; destruct (D ltac:(now rewrite ?map_length)) as (cdf & -> & I & _ & F). exists xs, (map (total [Fn (fun x => Fin (gaussian x 1 600 40))]) xs), cdf.
    repeat split; try assumption; [now rewrite map_length|]. apply map_ext. intros a. cbn [total]. unfold gaussian. ring.
  - pose proof (fun L => distribution_inv _ _ _ _ L H) as D; destruct (D ltac:(now rewrite ?map_length)) as (cdf & -> & I & _ & F). exists (map fst rows), (map snd rows), cdf.
    repeat split; try assumption; [now rewrite !map_length|]. clear. induction rows as [|[a b] rows IH]; [reflexivity|]. cbn. now rewrite IH.
  - destruct x as [xs|]; [|discriminate]. assert (N : forall y, ~ In (Num y) items).
    { intros y I. cbn [from_functions] in H. rewrite (add_functions_type _ _ _ y I) in H. discriminate. }
    rewrite from_functions_ok in H by exact N. pose proof (fun L => distribution_inv _ _ _ _ L H) as D; destruct (D ltac:(now rewrite ?map_length)) as (cdf & -> & I & _ & F).
    exists xs, (map (total items) xs), cdf. repeat split; try assumption. now rewrite map_length.
  - discriminate.
Qed.
Print Assumptions C113_emission_tabulated.
(** But without wavelengths "If None will use a Gaussian centred at 600nm" raises ValueError, also
    when the coefficient is an array that brings its own. *)
Theorem C113_default_emission_refuted : exists c d, abs_dist c None false = Made (Some d) /\ (forall w, 400 <= w <= 500 -> in_range d w) /\
  luminophore c ENone None false = ValueError.
Proof.
  destruct (C29_valid_spectrum_accepted [400; 500] [1; 3]) as [d E]; [reflexivity|simpl; lia|simpl; lra|repeat constructor; lra|unfold rsum; simpl; lra|].
  assert (A : abs_dist (CArray [(400, 1); (500, 3)]) None false = Made (Some d)) by (cbn [abs_dist map fst snd]; unfold distribution; rewrite E; reflexivity).
  exists (CArray [(400, 1); (500, 3)]), d. split; [exact A|]. split.
  - destruct (C29_cdf_is_proper [400; 500] [1; 3] d eq_refl E) as (cdf & -> & _). intros w Hw. exact Hw.
  - unfold luminophore. rewrite A. reflexivity.
Qed.
Print Assumptions C113_default_emission_refuted.
(** two line shapes, one with an overflow at the last wavelength, and a band edge *)
Example C113_example : exists d, abs_dist (CList [Fn (fun x => Fin (bandgap x 500 3)); Fn (fun x => if Rltb 500 x then PosInf else Fin 1)]) (Some [400; 500; 600]) false = Made (Some d) /\
  dist_call d 400 = Some 4 /\ dist_call d 500 = Some (5 / 2) /\ dist_call d 600 = Some 0.
Proof.
  set (items := [_; _]).
  assert (N : forall y, ~ In (Num y) items) by (intros y [H|[H|[]]]; discriminate).
  assert (T4 : total items 400 = 4). { unfold items. cbn. unfold bandgap, heaviside. rewrite (proj2 (Rltb_true (400 - 500) 0)), (proj2 (Rltb_false 500 400)) by lra. lra. }
  assert (T5 : total items 500 = 5 / 2). { unfold items. cbn. unfold bandgap, heaviside. rewrite (proj2 (Rltb_false (500 - 500) 0)), (proj2 (Rltb_false 0 (500 - 500))), (proj2 (Rltb_false 500 500)) by lra. lra. }
  assert (T6 : total items 600 = 0). { unfold items. cbn. unfold bandgap, heaviside. rewrite (proj2 (Rltb_false (600 - 500) 0)), (proj2 (Rltb_true 0 (600 - 500))), (proj2 (Rltb_true 500 600)) by lra. lra. }
  pose proof (from_functions_ok [400; 500; 600] items false N) as F. cbn [map] in F. rewrite T4, T5, T6 in F.
  destruct (C29_valid_spectrum_accepted [400; 500; 600] [4; 5 / 2; 0]) as [d E]; [reflexivity|simpl; lia|simpl; lra|repeat constructor; lra|unfold rsum; simpl; lra|].
  unfold distribution in F. rewrite E in F. exists d. cbn [abs_dist]. rewrite F. split; [reflexivity|].
  pose proof (C113_functions_summed_partial _ _ _ _ N F) as K. split; [rewrite <- T4; apply (K 0%nat); reflexivity|]. split; [rewrite <- T5; apply (K 1%nat); reflexivity|rewrite <- T6; apply (K 2%nat); reflexivity].
Qed.
(** the band edge: [alpha] below the cut-off, half of it there, nothing above *)
Theorem C113_band_edge : forall x cutoff alpha,
  (x < cutoff -> bandgap x cutoff alpha = alpha) /\ (x = cutoff -> bandgap x cutoff alpha = alpha / 2) /\ (cutoff < x -> bandgap x cutoff alpha = 0).
Proof.
  intros x c a. unfold bandgap, heaviside. split; [|split]; intros H.
  - rewrite (proj2 (Rltb_true (x - c) 0)) by lra. lra.
  - subst c. rewrite (proj2 (Rltb_false (x - x) 0)), (proj2 (Rltb_false 0 (x - x))) by lra. lra.
  - rewrite (proj2 (Rltb_false (x - c) 0)), (proj2 (Rltb_true 0 (x - c))) by lra. lra.
Qed.
Print Assumptions C113_band_edge.

(** ** C114 *)
Lemma increasing_ascending' xs : increasing xs -> ascending xs = true.
Proof. induction xs as [|a [|b l] IH]; intros H; [reflexivity..|]. destruct H as [H1 H2]. cbn [ascending]. rewrite (proj2 (Rltb_true 0 (b - a))) by lra. exact (IH H2). Qed.
(** "ValueError: if any element of y is not finite": only if no element is finite *)
Theorem C114_refused_iff_partial : forall xs ys, increasing xs ->
  checks xs ys = false <-> Forall (fun v => v = Nan \/ v = PosInf \/ v = NegInf) ys \/ Exists (fun v => v = NegInf \/ exists x, v = Fin x /\ x < 0) ys.
Proof.
  intros xs ys I. unfold checks. rewrite (increasing_ascending' xs I). cbn [andb]. split.
  - intros H. apply andb_false_iff in H. destruct H as [H|H].
    + left. apply Forall_forall. intros v Hv. destruct v; [|tauto..]. assert (existsb isfinite ys = true) by (apply existsb_exists; exists (Fin x); split; [exact Hv|reflexivity]). congruence.
    + right. apply negb_false_iff, existsb_exists in H. destruct H as (v & Hv & Hn). apply Exists_exists. exists v. split; [exact Hv|]. destruct v as [x| | |]; try discriminate; [|now left].
      right. exists x. split; [reflexivity|]. now apply Rltb_true.
  - intros [H|H]; apply andb_false_iff.
    + left. apply not_true_iff_false. intros E. apply existsb_exists in E as (v & Hv & Hf). rewrite Forall_forall in H. destruct (H v Hv) as [ -> | [ -> | -> ] ]; discriminate.
    + right. apply negb_false_iff, existsb_exists. apply Exists_exists in H as (v & Hv & Hn). exists v. split; [exact Hv|]. destruct Hn as [ -> | (x & -> & Hx) ]; [reflexivity|]. now apply Rltb_true.
Qed.
Print Assumptions C114_refused_iff_partial.
Theorem C114_nonfinite_refused_refuted : exists xs ys, increasing xs /\ length xs = length ys /\ In Nan ys /\ checks xs ys = true.
Proof.
  exists [400; 500; 600], [Fin 1; Nan; Fin 1]. split; [simpl; lra|]. split; [reflexivity|]. split; [simpl; tauto|].
  unfold checks. rewrite (increasing_ascending' [400; 500; 600]) by (simpl; lra). cbn. rewrite !(proj2 (Rltb_false 1 0)) by lra. reflexivity.
Qed.
Print Assumptions C114_nonfinite_refused_refuted.

(** ** C115 *)
Lemma conversion_pos : 0 < conversion_constant.
Proof. unfold conversion_constant, h_planck, c_light, q_electron. repeat first [apply Rmult_lt_0_compat | apply Rdiv_lt_0_compat | apply pow_lt | lra]. Qed.
Lemma conv_conv x : 0 < x -> conversion_constant / (conversion_constant / x) = x.
Proof. intros H. pose proof conversion_pos. field. split; lra. Qed.
(** eV of photons of wavelength nm, about 1239.84 / nm *)
Lemma conversion_value : 12398 / 10 < conversion_constant < 12399 / 10.
Proof. unfold conversion_constant, h_planck, c_light, q_electron. split; lra. Qed.
Theorem C115_conversion : forall spec, Forall (fun p => 0 < fst p) spec ->
  convert_spectrum (convert_spectrum spec) = spec /\
  forall k x y, nth_error spec k = Some (x, y) -> exists e, nth_error (convert_spectrum spec) k = Some (e, y) /\ 12398 / 10 < e * x < 12399 / 10.
Proof.
  intros spec H. pose proof conversion_pos as P. pose proof conversion_value as V. split.
  - unfold convert_spectrum. rewrite map_map. induction H as [|[x y] l Hx _ IH]; [reflexivity|]. cbn [map]. rewrite IH. f_equal. cbn in Hx. f_equal. field. lra.
  - intros k x y E. exists (conversion_constant / x). unfold convert_spectrum. rewrite (map_nth_error _ _ _ E). split; [reflexivity|].
    rewrite Forall_forall in H. specialize (H _ (nth_error_In _ _ E)). cbn in H. replace (conversion_constant / x * x) with conversion_constant by (field; lra). exact V.
Qed.
Print Assumptions C115_conversion.
Lemma fold_max_in l : forall x, In (fold_left Rmax l x) (x :: l).
Proof.
  induction l as [|a l IH]; intros x; cbn [fold_left]; [now left|]. destruct (IH (Rmax x a)) as [E|H].
  - rewrite <- E. unfold Rmax. destruct (Rle_dec x a); [right; now left|now left].
  - right. now right.
Qed.
Lemma fold_max_ub l : forall x y, In y (x :: l) -> y <= fold_left Rmax l x.
Proof.
  induction l as [|a l IH]; intros x y; cbn [fold_left].
  - intros [->|[]]. lra.
  - intros [->|[->|H]].
    + eapply Rle_trans; [apply (Rmax_l y a)|apply IH; now left].
    + eapply Rle_trans; [apply (Rmax_r x y)|apply IH; now left].
    + apply IH. now right.
Qed.
Lemma thermal_pos T mu x y : 0 < T -> mu < x -> 0 < x -> (0 <= y -> 0 <= thermal T mu (x, y)) /\ (0 < y -> 0 < thermal T mu (x, y)).
Proof.
  intros HT Hm Hx. unfold thermal, expm1. set (K := c_light * c_light * _). set (kT := k_boltzmann / q_electron * T).
  assert (PK : 0 < K) by (unfold K, c_light, h_planck, q_electron; repeat first [apply Rmult_lt_0_compat | apply Rdiv_lt_0_compat | apply pow_lt | lra]).
  assert (PT : 0 < kT) by (unfold kT, k_boltzmann, q_electron; repeat first [exact HT | apply Rmult_lt_0_compat | apply Rdiv_lt_0_compat | apply pow_lt | lra]).
  assert (PE : 0 < exp ((x - mu) / kT) - 1).
  { assert (0 < (x - mu) / kT) by (apply Rdiv_lt_0_compat; lra). rewrite <- exp_0. apply Rlt_Rminus, exp_increasing. assumption. }
  clearbody K kT. assert (PX : 0 < x * x) by (apply Rmult_lt_0_compat; lra). pose proof (Rinv_0_lt_compat _ PK). pose proof (Rinv_0_lt_compat _ PE).
  split; intros Hy; unfold Rdiv.
  - repeat apply Rmult_le_pos; lra.
  - repeat apply Rmult_lt_0_compat; lra.
Qed.
(** The emission is given on the wavelengths of the absorption, between 0 and 1 with peak 1, if all
    photons have more energy than mu. *)
Theorem C115_emission_partial : forall spec T mu, 0 < T ->
  Forall (fun p => 0 < fst p /\ mu < conversion_constant / fst p /\ 0 <= snd p) spec -> Exists (fun p => 0 < snd p) spec ->
  exists out, thermodynamic_emission spec T mu = Some out /\ map fst out = map fst spec /\ Forall (fun v => 0 <= v <= 1) (map snd out) /\ In 1 (map snd out) /\
    (forall k p v, nth_error spec k = Some p -> nth_error (map snd out) k = Some v -> (0 < v <-> 0 < snd p)).
Proof.
  intros spec T mu HT H Ex. pose proof conversion_pos as P. unfold thermodynamic_emission. cbv zeta.
  set (es := map (thermal T mu) (convert_spectrum spec)).
  assert (Q : forall k p, nth_error spec k = Some p -> nth_error es k = Some (thermal T mu (conversion_constant / fst p, snd p))).
  { intros k [x y] E. unfold es, convert_spectrum. rewrite map_map. now rewrite (map_nth_error _ _ _ E). }
  assert (S : forall p, In p spec -> (0 <= thermal T mu (conversion_constant / fst p, snd p)) /\ (0 < snd p <-> 0 < thermal T mu (conversion_constant / fst p, snd p))).
  { intros p Hp. rewrite Forall_forall in H. destruct (H p Hp) as (A & B & C). destruct (thermal_pos T mu (conversion_constant / fst p) (snd p) HT B (Rdiv_lt_0_compat _ _ P A)) as [U V].
    split; [now apply U|]. split; [exact V|]. intros W. destruct C as [C|C]; [exact C|]. exfalso. rewrite <- C in W. unfold thermal in W. replace (0 * 2) with 0 in W by ring. unfold Rdiv in W. rewrite !Rmult_0_l in W. lra. }
  assert (Les : length es = length spec) by (unfold es, convert_spectrum; now rewrite !map_length).
  destruct es as [|e0 er] eqn:Ees; [destruct spec; [inversion Ex|discriminate]|]. set (m := np_max e0 er).
  assert (Hm : 0 < m).
  { apply Exists_exists in Ex as (p & Hp & Hpos). destruct (In_nth_error _ _ Hp) as [k Hk]. specialize (Q _ _ Hk). apply nth_error_In in Q.
    apply (proj1 (proj2 (S p Hp))) in Hpos. apply Rlt_le_trans with (1 := Hpos). now apply fold_max_ub. }
  assert (Hin : In m (e0 :: er)) by apply fold_max_in.
  assert (Hub : forall v, In v (e0 :: er) -> v <= m) by (intros v; apply fold_max_ub). clearbody m.
  assert (Lc : length (map fst (convert_spectrum spec)) = length (map (fun v => v / m) (e0 :: er))) by (rewrite !map_length, Les; unfold convert_spectrum; now rewrite map_length).
  assert (Snd : map snd (convert_spectrum (combine (map fst (convert_spectrum spec)) (map (fun v => v / m) (e0 :: er)))) = map (fun v => v / m) (e0 :: er)).
  { revert Lc. generalize (map fst (convert_spectrum spec)) (map (fun v => v / m) (e0 :: er)). induction l as [|a l IH]; intros [|b l0] L; try discriminate; [reflexivity|].
    cbn. f_equal. apply IH. simpl in L; lia. }
  assert (Fst : map fst (convert_spectrum (combine (map fst (convert_spectrum spec)) (map (fun v => v / m) (e0 :: er)))) = map fst spec).
  { revert Lc. generalize (map (fun v => v / m) (e0 :: er)). clear - H P. induction H as [|[x y] l (Hx & _) _ IH]; intros [|b l0] L; try discriminate; [reflexivity|].
    cbn [convert_spectrum map combine fst] in *. f_equal; [apply conv_conv; exact Hx|]. apply IH. unfold convert_spectrum in *. cbn [length] in L. rewrite !map_length in *. lia. }
  eexists. split; [reflexivity|]. split; [exact Fst|]. rewrite Snd. clear Snd Fst Lc.
  assert (Div : forall v, v = v / m * m) by (intros v; field; lra).
  split; [|split].
  - apply Forall_forall. intros v Hv. apply in_map_iff in Hv as (w & <- & Hw). specialize (Hub w Hw). destruct (In_nth_error _ _ Hw) as [k Hk].
    destruct (nth_error spec k) as [p|] eqn:Ep; [|apply nth_error_None in Ep; assert (k < length (e0 :: er))%nat by (apply nth_error_Some; congruence); lia].
    rewrite (Q _ _ Ep) in Hk. assert (Ew : thermal T mu (conversion_constant / fst p, snd p) = w) by congruence. destruct (S p (nth_error_In _ _ Ep)) as [S1 _]. rewrite Ew in S1. specialize (Div w). set (z := w / m) in *. clearbody z.
    split; [apply Rmult_le_reg_r with m; lra|apply Rmult_le_reg_r with m; lra].
  - apply in_map_iff. exists m. split; [field; lra|exact Hin].
  - intros k p v Hk Hv. specialize (Q _ _ Hk). rewrite (map_nth_error _ _ _ Q) in Hv. assert (Ev : v = thermal T mu (conversion_constant / fst p, snd p) / m) by congruence. rewrite Ev. clear Ev Hv. destruct (S p (nth_error_In _ _ Hk)) as [_ S2]. rewrite S2.
    specialize (Div (thermal T mu (conversion_constant / fst p, snd p))). set (z := thermal T mu (conversion_constant / fst p, snd p) / m) in *. clearbody z. rewrite Div.
    split; intros Hz; [now apply Rmult_lt_0_compat|]. apply Rmult_lt_reg_r with m; lra.
Qed.
Print Assumptions C115_emission_partial.
(** Its shape: absorption times E^2 / (exp((E - mu) / kT) - 1) with E = 1239.8 eV nm / wavelength. *)
Definition planck (kT mu E : R) : R := E * E / (exp ((E - mu) / kT) - 1).
Lemma thermodynamic_values spec T mu out : thermodynamic_emission spec T mu = Some out -> Forall (fun p => 0 < fst p) spec ->
  exists m, forall k p, nth_error spec k = Some p -> nth_error out k = Some (fst p, thermal T mu (conversion_constant / fst p, snd p) / m).
Proof.
  unfold thermodynamic_emission. cbv zeta. intros H F. destruct (map (thermal T mu) (convert_spectrum spec)) as [|e es] eqn:E; [discriminate|].
  set (m := np_max e es) in *. clearbody m. exists m. rewrite <- E in H. assert (H' : out = convert_spectrum (combine (map fst (convert_spectrum spec)) (map (fun v => v / m) (map (thermal T mu) (convert_spectrum spec))))) by congruence.
  subst out. clear H E. induction F as [|[x y] l Hx F IH]; intros k p Hk; [destruct k; discriminate|]. destruct k as [|k].
  - cbn in Hk. injection Hk as <-. unfold convert_spectrum. cbn [map combine nth_error fst snd]. cbn in Hx. rewrite conv_conv by exact Hx. reflexivity.
  - exact (IH k p Hk).
Qed.
Theorem C115_shape : forall T mu, 0 < T -> exists kT hc, 861733 / 10 ^ 10 * T < kT < 861734 / 10 ^ 10 * T /\ 12398 / 10 < hc < 12399 / 10 /\
  forall spec out, Forall (fun p => 0 < fst p) spec -> thermodynamic_emission spec T mu = Some out ->
  forall i j xi yi vi xj yj vj, nth_error spec i = Some (xi, yi) -> nth_error out i = Some (xi, vi) -> nth_error spec j = Some (xj, yj) -> nth_error out j = Some (xj, vj) ->
    vi * (yj * planck kT mu (hc / xj)) = vj * (yi * planck kT mu (hc / xi)).
Proof.
  intros T mu HT. exists (k_boltzmann / q_electron * T), conversion_constant. split; [|split; [exact conversion_value|]].
  { assert (861733 / 10 ^ 10 < k_boltzmann / q_electron < 861734 / 10 ^ 10) by (unfold k_boltzmann, q_electron; lra).
    split; apply Rmult_lt_compat_r; tauto. }
  intros spec out F H i j xi yi vi xj yj vj Si Oi Sj Oj. destruct (thermodynamic_values spec T mu out H F) as [m Hm].
  pose proof (Hm _ _ Si) as Ei. pose proof (Hm _ _ Sj) as Ej. cbn [fst snd] in Ei, Ej. rewrite Oi in Ei. rewrite Oj in Ej.
  injection Ei as ->. injection Ej as ->. unfold thermal, planck, expm1, Rdiv. ring.
Qed.
Print Assumptions C115_shape.
(** With the default mu = 0.5 eV the emission is negative beyond about 2480 nm. *)
Theorem C115_emission_refuted : exists spec out v, Forall (fun p => 0 < fst p /\ 0 < snd p) spec /\
  thermodynamic_emission spec 300 (1 / 2) = Some out /\ In v (map snd out) /\ v < 0.
Proof.
  pose proof conversion_value as V. set (C := conversion_constant) in *.
  set (a := thermal 300 (1 / 2) (C / 1000, 1)). set (b := thermal 300 (1 / 2) (C / 5000, 1)).
  assert (A : 0 < a) by (apply thermal_pos; lra).
  assert (B : b < 0).
  { unfold b, thermal, expm1. set (K := c_light * c_light * _). set (kT := k_boltzmann / q_electron * 300).
    assert (PK : 0 < K) by (unfold K, c_light, h_planck, q_electron; repeat first [apply Rmult_lt_0_compat | apply Rdiv_lt_0_compat | apply pow_lt | lra]).
    assert (PT : 0 < kT) by (unfold kT, k_boltzmann, q_electron; repeat first [apply Rmult_lt_0_compat | apply Rdiv_lt_0_compat | apply pow_lt | lra]).
    assert (PE : exp ((C / 5000 - 1 / 2) / kT) - 1 < 0).
    { assert (0 < (1 / 2 - C / 5000) / kT) by (apply Rdiv_lt_0_compat; lra). replace ((C / 5000 - 1 / 2) / kT) with (- ((1 / 2 - C / 5000) / kT)) by (field; lra).
      set (q := (1 / 2 - C / 5000) / kT) in *. clearbody q. assert (G : exp (- q) < exp 0) by (apply exp_increasing; lra). rewrite exp_0 in G. lra. }
    assert (Pn : 0 < 1 * 2 * (C / 5000 * (C / 5000)) / K).
    { apply Rdiv_lt_0_compat; [|exact PK]. assert (0 < C / 5000) by lra. apply Rmult_lt_0_compat; [lra|]. now apply Rmult_lt_0_compat. }
    set (n := 1 * 2 * (C / 5000 * (C / 5000)) / K) in *. set (e := exp ((C / 5000 - 1 / 2) / kT) - 1) in *. clearbody n e.
    pose proof (Rinv_lt_0_compat _ PE) as Pi. assert (G : 0 < n * - / e) by (apply Rmult_lt_0_compat; lra). unfold Rdiv. lra. }
  exists [(1000, 1); (5000, 1)]. eexists. exists (b / a). split; [repeat constructor; simpl; lra|].
  unfold thermodynamic_emission. cbv zeta. cbn [convert_spectrum map]. fold C. fold a. fold b. split; [reflexivity|].
  assert (M : np_max a [b] = a) by (change (Rmax a b = a); apply Rmax_left; lra). rewrite M. split; [right; left; reflexivity|].
  assert (Pi : 0 < / a) by (now apply Rinv_0_lt_compat). assert (G : 0 < - b * / a) by (apply Rmult_lt_0_compat; lra). unfold Rdiv. lra.
Qed.
Print Assumptions C115_emission_refuted.
Example C115_example : exists out v, thermodynamic_emission [(400, 1); (500, 2)] 300 (1 / 2) = Some out /\ map fst out = [400; 500] /\ nth_error (map snd out) 0 = Some v /\ 0 < v <= 1.
Proof.
  pose proof conversion_value as V.
  destruct (C115_emission_partial [(400, 1); (500, 2)] 300 (1 / 2)) as (out & E & F & B & _ & P); [lra|repeat constructor; simpl; lra|apply Exists_cons_hd; simpl; lra|].
  assert (L : length (map snd out) = 2%nat) by (rewrite map_length; apply (f_equal (@length R)) in F; rewrite !map_length in F; exact F).
  exists out. destruct (map snd out) as [|v l] eqn:Em; [discriminate|]. exists v. split; [exact E|]. split; [exact F|]. split; [reflexivity|].
  apply Forall_cons_iff in B as [B _]. split; [apply (P 0%nat (400, 1) v eq_refl eq_refl); simpl; lra|lra].
Qed.
