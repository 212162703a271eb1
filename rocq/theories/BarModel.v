(** Model of the run controls of the studio: the number of rays entered, the progress bar and the
    status beside it (pvtrace/studio/static/app.js 1260-1307, server.py 204-208).

    The messages are those of the server (LiveModel.v).  Characters are ASCII.  Not modelled: the
    rate shown in the status, the rounding of doubles (numbers above 2^53, the quotient of line
    1280), the transition of the bar (app.css 74). *)
From Coq Require Import ZArith Bool Arith Ascii String List.
From Verif Require Import Base TallyModel BundleModel LiveModel.
Import ListNotations.
Open Scope nat_scope.

(** ** The number of rays *)
(** parseInt(text, 10): white space, a sign, digits; what follows is ignored; None = NaN *)
Definition blank (c : ascii) : bool := let n := nat_of_ascii c in Nat.eqb n 32 || (Nat.leb 9 n && Nat.leb n 13).
Definition digit (c : ascii) : option nat :=
  let n := nat_of_ascii c in if Nat.leb 48 n && Nat.leb n 57 then Some (n - 48) else None.
Fixpoint skip_blanks (s : string) : string :=
  match s with String c r => if blank c then skip_blanks r else s | EmptyString => s end.
(** the digits at the start, after those whose value is [acc] *)
Fixpoint leading (acc : Z) (s : string) : Z :=
  match s with
  | String c r => match digit c with Some d => leading (10 * acc + Z.of_nat d) r | None => acc end
  | EmptyString => acc
  end.
Definition digits_of (s : string) : option Z :=
  match s with String c _ => match digit c with Some _ => Some (leading 0 s) | None => None end | EmptyString => None end.
Definition parse_int (s : string) : option Z :=
  match skip_blanks s with
  | String "-" r => option_map Z.opp (digits_of r)
  | String "+" r => digits_of r
  | r => digits_of r
  end.
(** 1304-1305: parseInt(...) || default, for NaN and 0; int() of the server keeps it (204, 207) *)
Definition requested (default : Z) (s : string) : Z :=
  match parse_int s with Some 0%Z | None => default | Some n => n end.
Definition requested_rays : string -> Z := requested 100000.
Definition requested_every : string -> Z := requested 500.

(** ** Progress *)
(** (100 * traced / total).toFixed(1) in tenths: the nearest, of two the larger *)
Definition tenths (traced total : nat) : Z := ((2000 * Z.of_nat traced + Z.of_nat total) / (2 * Z.of_nat total))%Z.
(** The width of the bar in tenths of a percent; how often the status ends in " · done" *)
Record bar := Bar { width : Z; dones : nat }.
Definition bar0 : bar := Bar 0 0.
(** 1271-1296 *)
Definition show (b : bar) (c : content) : bar :=
  match c with
  | MStarted _ _ => Bar 0 (dones b)
  | MBundle traced total _ _ => Bar (tenths traced total) 0
  | MDone => Bar 1000 (S (dones b))
  | MError => b
  end.
Definition shows_all (b : bar) (cs : list content) : bar := fold_left show cs b.
Definition says_done (b : bar) : bool := Nat.ltb 0 (dones b).

(** 1299-1306 startRun on an open socket, as commands of the websocket: stop, then run *)
Definition start_run {scene params} (p : params) : list (happening scene params) := [Stop; Run p].
