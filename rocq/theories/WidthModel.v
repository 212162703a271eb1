(** Integer arithmetic of pvtrace/engine/_kernel.pyx with the widths of C: int has 32 bits and
    long 64 (LP64).  Signed overflow is undefined, so an expression has no value if one of its
    parts does not fit its type. *)
From Coq Require Import ZArith List Bool.
From Verif Require Import MemModel.
Import ListNotations.
Open Scope Z_scope.

Inductive cty := Int | Long.
Definition cmin (t : cty) : Z := match t with Int => - 2 ^ 31 | Long => - 2 ^ 63 end.
Definition cmax (t : cty) : Z := match t with Int => 2 ^ 31 - 1 | Long => 2 ^ 63 - 1 end.
Definition cval := option (cty * Z).
Definition chk (t : cty) (z : Z) : cval := if (cmin t <=? z) && (z <=? cmax t) then Some (t, z) else None.
(** usual arithmetic conversions *)
Definition join (a b : cty) : cty := match a, b with Int, Int => Int | _, _ => Long end.
Definition cop (f : Z -> Z -> Z) (x y : cval) : cval :=
  match x, y with Some (t, a), Some (u, b) => chk (join t u) (f a b) | _, _ => None end.
Definition cadd := cop Z.add.   Definition cmul := cop Z.mul.
Definition int (z : Z) : cval := chk Int z.   Definition long (z : Z) : cval := chk Long z.

(** ** tally: 511-514 the rows of a thread.  tid, n_recorders and total_bins are int (144-146,
    501-509), so the products are int before they are added to the pointers. *)
Definition base_counts (s : setting) (tid : Z) : cval := cmul (int tid) (int (n_recorders s)).
Definition base_sums (s : setting) (tid : Z) : cval := cmul (cmul (int tid) (int (n_recorders s))) (int 8).
Definition base_bins (s : setting) (tid : Z) : cval := cmul (int tid) (int (total_bins s)).
(** 534-541: sums[r * 8 + k] *)
Definition sums_index (r k : Z) : cval := cadd (cmul (int r) (int 8)) (int k).
(** 549: S.h_offset[h] + ia; 556: S.h_offset[h] + ia * S.h_nb[h] + ib *)
Definition bin_index (offset ia : Z) : cval := cadd (int offset) (int ia).
Definition cell_index (offset ia nb ib : Z) : cval := cadd (cadd (int offset) (cmul (int ia) (int nb))) (int ib).
(** 1080: base = (i // record_every) * max_events with long i and record_every, int max_events *)
Definition log_base (i every max_events : Z) : cval := cmul (long (i / every)) (int max_events).
(** 583: row = base + count[0]; 591-593: row * 3 + i *)
Definition log_row (base : cval) (count : Z) : cval := cadd base (int count).
Definition log_row3 (row : cval) (i : Z) : cval := cadd (cmul row (int 3)) (int i).
(** 230: mid = (lo + hi) >> 1 *)
Definition mid (lo hi : Z) : cval := match cadd (int lo) (int hi) with Some (t, z) => Some (t, Z.shiftr z 1) | None => None end.
(** 656: count += 1 *)
Definition next_count (count : Z) : cval := cadd (int count) (int 1).

(** Where the pointer of an array is moved to before it is indexed: by the thread in tally
    (511-514), by the ray in trace_bundle (1088-1089: posp + i * 3 with long i), not at all in the
    other arrays. *)
Definition start (s : setting) (tid ray : Z) (a : array) : cval :=
  match a with
  | distinct | cross => base_counts s tid
  | sums => base_sums s tid
  | bins => base_bins s tid
  | pos_work | dir_work => cmul (long ray) (int 3)
  | _ => int 0
  end.
(** The type of the index that is added: rows of the event log and of the rays are long, all
    other indices int. *)
Definition index_type (a : array) : cty :=
  match a with
  | ev_position | ev_direction | ev_normal | ev_kind | ev_hit | ev_container | ev_adjacent | ev_component | ev_source
  | ev_wavelength | ev_travelled | ev_duration | wav_work | counts => Long
  | _ => Int
  end.
