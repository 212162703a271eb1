(** Model of the output of pvtrace-cli time and spectrum (pvtrace/cli/time.py 28-55, 94-104, 231-238, …;
    pvtrace/cli/spectrum.py 28-55, …). *)
From Coq Require Import Reals ZArith List Bool Arith.
From Verif Require Import Base TracerModel CliModel.
Import ListNotations.
Open Scope nat_scope.

(** numpy.array(result): of a list of rows, or of a tuple of numbers.  Throw ids pass through
    float64 and back, which is exact below 2^53. *)
Inductive array := Rows (l : list (nat * R)) | Flat (l : list R).
(** result[:, 1], result[:, 0]; None = IndexError: too many indices for array *)
Definition column1 (a : array) : option (list R) := match a with Rows l => Some (map snd l) | Flat _ => None end.
Definition column0 (a : array) : option (list nat) := match a with Rows l => Some (map fst l) | Flat _ => None end.

(** numpy.histogram(x) with its ten bins (numpy's _histogram_bin_edges and the fast path for
    uniform bins; the corrections for rounding are void in exact arithmetic) *)
Definition lmin (l : list R) : R := match l with [] => 0%R | x :: r => fold_left Rmin r x end.
Definition lmax (l : list R) : R := match l with [] => 1%R | x :: r => fold_left Rmax r x end.
Definition range_of (l : list R) : R * R :=
  let '(a, b) := (lmin l, lmax l) in if Reqb a b then (a - 1 / 2, b + 1 / 2)%R else (a, b).
Definition n_bins : nat := 10.
(** np.linspace(first, last, 11) *)
Definition edge (l : list R) (k : nat) : R := let '(a, b) := range_of l in (a + INR k * ((b - a) / INR n_bins))%R.
Definition bin_of (l : list R) (x : R) : nat :=
  let '(a, b) := range_of l in
  let i := Z.to_nat (up ((x - a) * (INR n_bins / (b - a))) - 1) in
  if Nat.eqb i n_bins then i - 1 else i.
Definition np_histogram (l : list R) : list nat * list R :=
  (map (fun k => length (filter (fun x => Nat.eqb (bin_of l x) k) l)) (seq 0 n_bins), map (edge l) (seq 0 (S n_bins))).

(** What the command prints.  The drawing of the histogram by termplotlib is not modelled. *)
Inductive choice := Plot | Csv | Json.
Inductive printed := Nothing | Histogram (counts : list nat) (edges : list R) | Table (rows : list (nat * R)) | Object (fields : list (nat * R)) | Raised.
(** 28-55 handle_output; DataFrame.to_json with the default orient raises ValueError unless the
    index is unique *)
Definition handle_output (result : array) (output : choice) : printed :=
  match column1 result, column0 result with
  | Some samples, Some ids =>
      match output with
      | Plot => let '(counts, edges) := np_histogram samples in Histogram counts edges
      | Csv => Table (combine ids samples)
      | Json => if Nat.eqb (length (nodup Nat.eq_dec ids)) (length ids) then Object (combine ids samples) else Raised
      end
  | _, _ => Raised
  end.

(** spectrum.py: all six commands hand over the rows *)
Definition spectrum_command (q : query) (node : nat) (f : filters) (db : database) (output : choice) : printed :=
  let result := sql_spectrum q node f db in
  if Nat.ltb 0 (length result) then handle_output (Rows result) output else Nothing.
(** time.py: reflected, entering and escaping hand over the rows (102-104); lost, reacted and
    killed only the samples (236-238, 272-274, 308-310) *)
Definition time_command (q : query) (node : nat) (f : filters) (db : database) (output : choice) : printed :=
  let result := sql_time q node f db in
  if Nat.ltb 0 (length result) then
    match q with
    | QLost | QReacted | QKilled => handle_output (Flat (map snd result)) output
    | _ => handle_output (Rows result) output
    end
  else Nothing.
