(** Model of the random number generator of pvtrace/engine/_kernel.pyx 72-113:
    splitmix64-seeded xoshiro256+, one stream per ray.

    An unsigned long long is a number in [0, 2^64). *)
From Coq Require Import ZArith Reals List.
Import ListNotations.
Open Scope Z_scope.

Definition W : Z := 2 ^ 64.
Definition word (x : Z) : Z := x mod W.
Definition is_word (x : Z) : Prop := 0 <= x < W.

(** 84-89 _splitmix64: the new state and the output *)
Definition gamma : Z := 0x9E3779B97F4A7C15.
Definition mix (z : Z) : Z :=
  let z := word (Z.lxor z (Z.shiftr z 30) * 0xBF58476D1CE4E5B9) in
  let z := word (Z.lxor z (Z.shiftr z 27) * 0x94D049BB133111EB) in
  Z.lxor z (Z.shiftr z 31).
Definition splitmix64 (state : Z) : Z * Z := let state := word (state + gamma) in (state, mix state).

(** 76-80 *)
Record rng := Rng { s0 : Z; s1 : Z; s2 : Z; s3 : Z }.

(** 92-97 rng_seed *)
Definition rng_seed (seed : Z) : rng :=
  let state := seed in
  let '(state, a) := splitmix64 state in
  let '(state, b) := splitmix64 state in
  let '(state, c) := splitmix64 state in
  let '(state, d) := splitmix64 state in
  Rng a b c d.

(** 100-101 _rotl *)
Definition rotl (x k : Z) : Z := Z.lor (word (Z.shiftl x k)) (Z.shiftr x (64 - k)).

(** 104-114 rng_uniform: the new state and the draw *)
Definition rng_next (g : rng) : rng :=
  let t := word (Z.shiftl (s1 g) 17) in
  let b2 := Z.lxor (s2 g) (s0 g) in
  let b3 := Z.lxor (s3 g) (s1 g) in
  let b1 := Z.lxor (s1 g) b2 in
  let b0 := Z.lxor (s0 g) b3 in
  Rng b0 b1 (Z.lxor b2 t) (rotl b3 45).
Definition rng_result (g : rng) : Z := word (s0 g + s3 g).
Definition rng_draw (g : rng) : R := (IZR (Z.shiftr (rng_result g) 11) * (1 / 9007199254740992))%R.

(** The state after [k] draws, and draw number [k] (from 0). *)
Fixpoint rng_after (k : nat) (g : rng) : rng := match k with O => g | S k => rng_after k (rng_next g) end.
Definition nth_draw (k : nat) (g : rng) : R := rng_draw (rng_after k g).

(** 1087-1093: the seed of ray [i] *)
Definition ray_seed (seed : Z) (i : nat) : Z := word (seed + Z.of_nat i).
