(** Model of how a number gets from a field of the studio page into the scene: JSON.stringify in
    the page (studio/static/app.js 1190-1200), Python's json, the document written by ruamel.yaml
    (server.py 304-309, 319-327, 336-359, 469-471) and read again by PyYAML (cli/parse.py 65-69).
    A double is represented by its shortest decimal, which both JavaScript and Python write.
    Written out from the language definitions: Number.prototype.toString (ECMA-262), json.scanner,
    float.__repr__, ruamel's SafeRepresenter.represent_float (repr, without the correction that is
    made for YAML 1.1) and PyYAML's resolver for floats and integers. *)
From Coq Require Import Reals ZArith List Bool Arith.
From Verif Require Import Base SpecModel.
Import ListNotations.
Open Scope nat_scope.

Inductive char := D (n : nat) | Dot | E | Plus | Minus.
Definition text := list char.
Definition ds (l : list nat) : text := map D l.

(** 0.d1 d2 ... dn * 10^point; no digits: zero *)
Record decimal := Dec { d_neg : bool; d_digits : list nat; d_point : Z }.
Definition digit_list (l : list nat) : Prop := Forall (fun n => n < 10) l.
(** shortest: neither the first nor the last digit is 0; the exponent has at most three digits *)
Definition shortest (d : decimal) : Prop :=
  digit_list (d_digits d) /\ match d_digits d with [] => d_point d = 0%Z | a :: _ => a <> 0 end /\ last (d_digits d) 1 <> 0 /\ (-900 < d_point d < 900)%Z.
Definition digits_value (l : list nat) : Z := fold_left (fun a n => 10 * a + Z.of_nat n)%Z l 0%Z.
Definition sign_value (neg : bool) : R := if neg then (-1)%R else 1%R.
Definition value (d : decimal) : R := (sign_value (d_neg d) * IZR (digits_value (d_digits d)) * powerRZ 10 (d_point d - Z.of_nat (length (d_digits d))))%R.

(** digits of an exponent below 1000, without and with padding to two digits *)
Definition exponent (n : nat) : list nat :=
  if n <? 10 then [n] else if n <? 100 then [n / 10; n mod 10] else [n / 100; n / 10 mod 10; n mod 10].
Definition exponent2 (n : nat) : list nat := if n <? 10 then [0; n] else exponent n.
Definition sign_text (neg : bool) : text := if neg then [Minus] else [].
Definition exp_sign (x : Z) : char := if (x <? 0)%Z then Minus else Plus.

(** d.ddde+xx *)
Definition scientific (pad : nat -> list nat) (l : list nat) (x : Z) : text :=
  match l with
  | [] => []
  | a :: rest => D a :: (match rest with [] => [] | _ => Dot :: ds rest end) ++ E :: exp_sign x :: ds (pad (Z.abs_nat x))
  end.
Definition zeros (n : Z) : list nat := repeat 0 (Z.to_nat n).

(** Number.prototype.toString; -0 is written 0 *)
Definition js_text (d : decimal) : text :=
  let k := Z.of_nat (length (d_digits d)) in
  let n := d_point d in
  match d_digits d with
  | [] => [D 0]
  | _ => sign_text (d_neg d) ++
      (if (k <=? n)%Z && (n <=? 21)%Z then ds (d_digits d ++ zeros (n - k))
       else if (0 <? n)%Z && (n <=? 21)%Z then ds (firstn (Z.to_nat n) (d_digits d)) ++ Dot :: ds (skipn (Z.to_nat n) (d_digits d))
       else if (-6 <? n)%Z && (n <=? 0)%Z then D 0 :: Dot :: ds (zeros (- n) ++ d_digits d)
       else scientific exponent (d_digits d) (n - 1))
  end.

(** float.__repr__ *)
Definition py_repr (d : decimal) : text :=
  let k := Z.of_nat (length (d_digits d)) in
  let n := d_point d in
  sign_text (d_neg d) ++
  match d_digits d with
  | [] => [D 0; Dot; D 0]
  | _ =>
      if (n <=? -4)%Z || (16 <? n)%Z then scientific exponent2 (d_digits d) (n - 1)
      else if (n <=? 0)%Z then D 0 :: Dot :: ds (zeros (- n) ++ d_digits d)
      else if (k <=? n)%Z then ds (d_digits d ++ zeros (n - k)) ++ [Dot; D 0]
      else ds (firstn (Z.to_nat n) (d_digits d)) ++ Dot :: ds (skipn (Z.to_nat n) (d_digits d))
  end.
(** str(int) *)
Definition py_int_text (d : decimal) : text :=
  match d_digits d with
  | [] => [D 0]
  | _ => sign_text (d_neg d) ++ ds (d_digits d ++ zeros (d_point d - Z.of_nat (length (d_digits d))))
  end.

(** *** Reading *)
Fixpoint span (t : text) : list nat * text :=
  match t with D n :: r => let '(a, r) := span r in (n :: a, r) | _ => ([], t) end.
Definition read_sign (plus : bool) (t : text) : bool * text :=
  match t with Minus :: r => (true, r) | Plus :: r => if plus then (false, r) else (false, t) | _ => (false, t) end.
Fixpoint strip (l : list nat) : list nat := match l with 0 :: r => strip r | _ => l end.
Definition strip_end (l : list nat) : list nat := rev (strip (rev l)).
(** the number written with digits [a] before and [b] after the point and exponent [x] *)
Definition canon (neg : bool) (a b : list nat) (x : Z) : decimal :=
  let l := strip (a ++ b) in
  match strip_end l with
  | [] => Dec neg [] 0
  | l' => Dec neg l' (Z.of_nat (length a) + x - (Z.of_nat (length (a ++ b)) - Z.of_nat (length l)))
  end.
Definition exponent_value (c : char) (x : list nat) : Z := match c with Minus => (- digits_value x)%Z | _ => digits_value x end.

(** A Python number: an int (a decimal without fraction) or a float *)
Inductive pynum := PyInt (d : decimal) | PyFloat (d : decimal).
(** 0|[1-9]\d* *)
Definition plain_int (l : list nat) : bool := match l with [] => false | [_] => true | 0 :: _ => false | _ => true end.

(** json.scanner NUMBER_RE: (-?(?:0|[1-9]\d* ))(\.\d+)?([eE][-+]?\d+)? and nothing after it *)
Definition json_read (t : text) : option pynum :=
  let '(neg, t1) := read_sign false t in
  let '(a, t2) := span t1 in
  if negb (plain_int a) then None
  else
    let '(b, t3, frac) := match t2 with
                          | Dot :: r => let '(b, r') := span r in match b with [] => ([], t2, false) | _ => (b, r', true) end
                          | _ => ([], t2, false)
                          end in
    match t3 with
    | [] => Some (if frac then PyFloat (canon neg a b 0) else PyInt (canon neg a [] 0))
    | E :: Plus :: r | E :: Minus :: r =>
        let '(x, r') := span r in
        match x, r' with _ :: _, [] => Some (PyFloat (canon neg a b (exponent_value (nth 1 t3 Dot) x))) | _, _ => None end
    | E :: r =>
        let '(x, r') := span r in
        match x, r' with _ :: _, [] => Some (PyFloat (canon neg a b (digits_value x))) | _, _ => None end
    | _ => None
    end.

(** What ruamel writes *)
Definition yaml_text (n : pynum) : text := match n with PyInt d => py_int_text d | PyFloat d => py_repr d end.

(** PyYAML: [-+]?(?:[0-9][0-9_]* )\.[0-9_]*(?:[eE][-+][0-9]+)? is a float, [-+]?(?:0|[1-9][0-9_]* ) an
    integer, other texts made of these characters are strings.  (Left out: underscores, and the forms
    that are never written here: .5, base 60, 0b, 0x, octal, .inf and .nan.) *)
Definition yaml_read (t : text) : option pynum :=
  let '(neg, t1) := read_sign true t in
  let '(a, t2) := span t1 in
  match a with
  | [] => None
  | _ =>
      match t2 with
      | [] => if plain_int a then Some (PyInt (canon neg a [] 0)) else None
      | Dot :: r =>
          let '(b, t3) := span r in
          match t3 with
          | [] => Some (PyFloat (canon neg a b 0))
          | E :: s :: r' =>
              let '(x, r'') := span r' in
              match s, x, r'' with
              | Plus, _ :: _, [] | Minus, _ :: _, [] => Some (PyFloat (canon neg a b (exponent_value s x)))
              | _, _, _ => None
              end
          | _ => None
          end
      | _ => None
      end
  end.

(** a number of the document, as in SpecModel *)
Definition int_value (d : decimal) : Z :=
  ((if d_neg d then -1 else 1) * digits_value (d_digits d) * 10 ^ (d_point d - Z.of_nat (length (d_digits d))))%Z.
Definition number_of (n : pynum) : number := match n with PyInt d => Int (int_value d) | PyFloat d => Float (value d) end.

(** The number in the scene after the page has sent [d] with "set" (server.py 336-343); None: the
    document now contains a string, which the schema refuses (type number) *)
Definition arrives (d : decimal) : option number :=
  match json_read (js_text d) with
  | None => None
  | Some n => option_map number_of (yaml_read (yaml_text n))
  end.
(** "move" writes floats: round(float(v), 6) (server.py 357-359) *)
Definition float_arrives (d : decimal) : option number := option_map number_of (yaml_read (yaml_text (PyFloat d))).
