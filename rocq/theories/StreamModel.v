(** Model of the emission of whole bundles (pvtrace/engine/emit.py 92-134), of Scene.emit
    (scene/scene.py 141-152) and of simulate / simulate_stream (engine/api.py 197-264). *)
From Coq Require Import Reals ZArith List Bool Arith.
From Verif Require Import TracerModel KernelModel TallyModel RngModel BundleModel.
Import ListNotations.
Open Scope nat_scope.

(** np.arange(start, stop, step) for step >= 1 *)
Definition arange (start stop step : nat) : list nat := map (fun k => start + k * step) (seq 0 ((stop - start + step - 1) / step)).

(** emit.py 106-132: the assignments to rows of the arrays, in order: (row, (light, k)) where k
    counts the rays of that light *)
Definition emit_writes (lights num_rays : nat) : list (nat * (nat * nat)) :=
  flat_map (fun index => let rows := arange index num_rays lights in
              combine rows (map (pair index) (seq 0 (length rows)))) (seq 0 lights).
(** The arrays: row -> light and number of the sample.  None is the initial content (zeros,
    source None). *)
Definition emit_bundle (lights num_rays : nat) : nat -> option (nat * nat) :=
  fold_left (fun f '(row, x) => set f row (Some x)) (emit_writes lights num_rays) (fun _ => None).

(** scene.py 141-152: the light of ray idx; None = ZeroDivisionError *)
Definition scene_emit_light (lights idx : nat) : option nat :=
  if Nat.eqb lights 0 then None else Some (idx mod lights).

(** What simulate decides for each ray: light, seed of its random stream, recorded or not
    (_kernel.pyx 1078-1093).  None = OverflowError: int(seed) does not fit into an
    unsigned long long. *)
Record plan := Plan { p_light : option nat; p_seed : Z; p_recorded : bool }.
Definition recorded (every i : nat) : bool := Nat.ltb 0 every && Nat.eqb (i mod every) 0.
Definition simulate (lights num_rays : nat) (seed : Z) (every : nat) : option (list plan) :=
  if ((0 <=? seed) && (seed <? W))%Z
  then Some (map (fun i => Plan (option_map fst (emit_bundle lights num_rays i)) (ray_seed seed i) (recorded every i)) (seq 0 num_rays))
  else None.

(** api.py 259-264: the bundles (traced, n).  [fuel] bounds the number of iterations; for
    bundle = 0 the loop does not end. *)
Fixpoint bundles (fuel traced num_rays bundle : nat) : list (nat * nat) :=
  match fuel with
  | O => []
  | S fuel =>
      if Nat.ltb traced num_rays
      then let n := Nat.min bundle (num_rays - traced) in (traced, n) :: bundles fuel (traced + n) num_rays bundle
      else []
  end.
Definition simulate_stream (lights num_rays bundle : nat) (seed : Z) (every : nat) : option (list (list plan)) :=
  all_some (map (fun '(traced, n) => simulate lights n (seed + Z.of_nat traced) every) (bundles num_rays 0 num_rays bundle)).

(** One bundle of a job whose rays are already emitted *)
Definition bundle_job (J : job) (traced n : nat) : job :=
  Job (j_scene J) (j_recorders J) (firstn n (skipn traced (j_rays J))) (j_seed J + Z.of_nat traced) (j_streams J)
      (j_maxsteps J) (j_max_events J) (j_method J) (j_every J).
