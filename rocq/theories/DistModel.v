(** Model of pvtrace/material/distribution.py and of the wavelength sampling in
    pvtrace/material/component.py (Luminophore.emit) and
    pvtrace/engine/_kernel.pyx (trace_one, EMIT). *)
From Coq Require Import Reals List Bool Arith.
From Verif Require Import Base Interp.
Import ListNotations.
Open Scope R_scope.

(** A [Distribution] object: material/distribution.py 31-57.  [DConst] is the
    case x is None and y a float.  [DTable] keeps the fields _x, _y, _cdf and
    the flag hist ([_edges[:-1]] equals [_x], so it is not stored). *)
Inductive dist :=
| DConst (y : R)
| DTable (hist : bool) (xs ys cdf : list R).

(** Outcome of the constructor.  [NanCdf] is the case where numpy divides by a
    zero total and silently stores nan. *)
Inductive mk_result := MkOk (d : dist) | MkValueError | MkIndexError | MkNanCdf.

(** np.all(np.diff(x) > 0), distribution.py 36 *)
Fixpoint ascending (xs : list R) : bool :=
  match xs with
  | a :: ((b :: _) as r) => Rltb 0 (b - a) && ascending r
  | _ => true
  end.

(** (y[:-1] + y[1:]) * 0.5, distribution.py 54 *)
Fixpoint midpoints (ys : list R) : list R :=
  match ys with
  | a :: ((b :: _) as r) => (a + b) * (1/2) :: midpoints r
  | _ => []
  end.

(** np.max of a non-empty array, starting from its first element *)
Definition np_max (a : R) (l : list R) : R := fold_left Rmax l a.

(** material/distribution.py 12-57 Distribution.__init__ for array arguments.
    [np.isfinite(y).any()] is false exactly for empty y since reals are finite.
    Simplification: x and y are assumed to have the same length (numpy would
    broadcast or raise). *)
Definition mk_dist (xs ys : list R) (hist : bool) : mk_result :=
  if negb (ascending xs) then MkValueError
  else match ys with
  | [] => MkValueError
  | _ :: _ =>
    if existsb (fun y => Rltb y 0) ys then MkValueError
    else if hist then
      let c := cumsum ys in
      let tot := last c 0 in
      if Nat.ltb (length xs) 2 then MkIndexError
      else if Reqb tot 0 then MkNanCdf
      else MkOk (DTable true xs ys (map (fun v => v * (1 / tot)) c))
    else
      match cumsum (midpoints ys) with
      | [] => MkValueError
      | c0 :: cr =>
          let m := np_max c0 cr in
          if Reqb m 0 then MkNanCdf
          else MkOk (DTable false xs ys (0 :: map (fun v => v / m) (c0 :: cr)))
      end
  end.

(** geometry/utils.py 368-381 allinrange for one scalar *)
Definition allinrange (x lo hi : R) : bool := negb (Rltb x lo || Rltb hi x).

(** np.searchsorted(a, v) (side='left') on an ascending array *)
Fixpoint searchsorted (l : list R) (v : R) : nat :=
  match l with
  | [] => 0
  | a :: r => if Rltb a v then S (searchsorted r v) else 0
  end.

Definition x_min (xs : list R) := hd 0 xs.
Definition x_max (xs : list R) := last xs 0.

(** material/distribution.py 59-87 __call__; [None] = ValueError/IndexError.
    np.min/np.max of the ascending _x are its first and last element. *)
Definition dist_call (d : dist) (x : R) : option R :=
  match d with
  | DConst y => Some y
  | DTable hist xs ys cdf =>
      if negb (allinrange x (x_min xs) (x_max xs)) then None
      else if hist then nth_error ys (searchsorted xs x)
      else np_interp (combine xs ys) x
  end.

(** material/distribution.py 89-134 lookup *)
Definition dist_lookup (d : dist) (x : R) : option R :=
  match d with
  | DConst _ => None
  | DTable hist xs ys cdf =>
      if negb (allinrange x (x_min xs) (x_max xs)) then None
      else if hist then nth_error cdf (searchsorted xs x)
      else np_interp (combine xs cdf) x
  end.

(** material/distribution.py 136-181 sample *)
Definition dist_sample (d : dist) (p : R) : option R :=
  match d with
  | DConst _ => None
  | DTable hist xs ys cdf =>
      if negb (allinrange p 0 1) then None
      else if hist then
        match nth_error xs (searchsorted cdf p) with
        | Some v => Some v
        | None => Some (last xs 0)
        end
      else np_interp (combine cdf xs) p
  end.

(** material/component.py 14-15: Boltzmann constant in eV/K; _kernel.pyx 33 *)
Definition kB_eV : R := 1380649 / 1000000 / 10 ^ 23 / (160217662 / 100000000 / 10 ^ 19).

Inductive emit_method := KT | Redshift | Full.

(** material/component.py 404-412: wavelength whose energy is 3/2 kB T above *)
Definition kT_shift (nm T : R) : R := 1240 / (1240 / nm + 3 / 2 * kB_eV * T).

(** material/component.py 404-426: Luminophore.emit wavelength for draw [u].
    np.random.uniform(p1, p2) = p1 + (p2 - p1) u. *)
Definition emit_wavelength (d : dist) (m : emit_method) (T nm u : R) : option R :=
  let p1 := match m with
            | KT => dist_lookup d (kT_shift nm T)
            | Redshift => dist_lookup d nm
            | Full => Some 0
            end in
  match p1 with
  | None => None
  | Some p1 => dist_sample d (p1 + (1 - p1) * u)
  end.

(** engine/_kernel.pyx 806-817: the same in the kernel, with clamping tables.
    [xs]/[cdf] are the columns ems_x/ems_cdf copied from the Distribution
    (compiler.py 279-281).  The kernel fixes T = 300. *)
Definition k_emit_wavelength (xs cdf : list R) (m : emit_method) (nm u : R) : R :=
  let p1 := match m with
            | Full => 0
            | Redshift => interp_clamped nm xs cdf
            | KT => interp_clamped (1240 / (1240 / nm + 3 / 2 * kB_eV * 300)) xs cdf
            end in
  interp_clamped (p1 + (1 - p1) * u) cdf xs.

(** engine/_kernel.pyx 744-752 and compiler.py 312-326: the coefficient used by
    the kernel: a one-knot table for constants, the clamped table otherwise. *)
Definition k_coefficient (d : dist) (x : R) : R :=
  match d with
  | DConst y => interp_clamped x [0] [y]
  | DTable _ xs ys _ => interp_clamped x xs ys
  end.
