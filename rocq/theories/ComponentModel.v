(** Model of the constructors of components (pvtrace/material/component.py), of
    Distribution.from_functions (pvtrace/material/distribution.py) and of the line shapes in
    pvtrace/material/utils.py. *)
From Coq Require Import Reals ZArith List Bool.
From Verif Require Import Base Interp DistModel.
Import ListNotations.
Open Scope R_scope.

(** A float; inf and -inf are told apart from nan by comparisons. *)
Inductive float := Fin (x : R) | Nan | PosInf | NegInf.
Definition isfinite (v : float) : bool := match v with Fin _ => true | _ => false end.
Definition value (v : float) : R := match v with Fin x => x | _ => 0 end.
(** v < 0.0 *)
Definition negative (v : float) : bool := match v with Fin x => Rltb x 0 | NegInf => true | _ => false end.

(** ** distribution.py 35-42: the checks of Distribution.__init__; true = no exception.  x is
    finite. *)
Definition checks (xs : list R) (ys : list float) : bool :=
  ascending xs && existsb isfinite ys && negb (existsb negative ys).

(** ** distribution.py 183-193 from_functions *)
(** What can be in the list [callables]: a function that accepts an array and returns the array of its
    values, or a number (calling it raises TypeError).  Functions that return anything else or
    raise are not modelled. *)
Inductive item := Fn (f : R -> float) | Num (y : R).
Inductive outcome (A : Type) := Made (a : A) | ValueError | TypeError | IndexError.
Arguments Made {A} _.   Arguments ValueError {A}.   Arguments TypeError {A}.   Arguments IndexError {A}.
(** y_ = f(x); y_[~np.isfinite(y_)] = 0.0; y += y_ *)
Fixpoint add_functions (xs : list R) (items : list item) (ys : list R) : outcome (list R) :=
  match items with
  | [] => Made ys
  | Num _ :: _ => TypeError
  | Fn f :: rest => add_functions xs rest (map (fun '(x, y) => y + (if isfinite (f x) then value (f x) else 0)) (combine xs ys))
  end.
(** Distribution(x=, y=, hist=) on finite arrays; a CDF of nan (a spectrum that is 0 everywhere)
    is kept as a table without CDF *)
Definition distribution (xs ys : list R) (hist : bool) : outcome dist :=
  match mk_dist xs ys hist with
  | MkOk d => Made d
  | MkNanCdf => Made (DTable hist xs ys [])
  | MkValueError => ValueError
  | MkIndexError => IndexError
  end.
(** [x] is None: np.array(None) has no dimension *)
Definition from_functions (x : option (list R)) (items : list item) (hist : bool) : outcome dist :=
  match x with
  | None => ValueError
  | Some xs =>
      match add_functions xs items (map (fun _ => 0) xs) with
      | Made ys => distribution xs ys hist
      | ValueError => ValueError | TypeError => TypeError | IndexError => IndexError
      end
  end.

(** ** component.py 104-119: self._abs_dist.  [None]: no branch applies and the attribute does not
    exist; each use of the component then raises AttributeError. *)
Inductive coefficient := CNone | CInt (n : Z) | CFloat (y : R) | CArray (rows : list (R * R)) | CList (items : list item).
Definition made {A} (r : outcome A) : outcome (option A) :=
  match r with Made a => Made (Some a) | ValueError => ValueError | TypeError => TypeError | IndexError => IndexError end.
Definition abs_dist (c : coefficient) (x : option (list R)) (hist : bool) : outcome (option dist) :=
  match c with
  | CNone => ValueError
  | CFloat y => Made (Some (DConst y))
  | CArray rows => made (distribution (map fst rows) (map snd rows) hist)
  | CList items => match x with None => ValueError | Some _ => made (from_functions x items hist) end
  | CInt _ => Made None
  end.
(** 137-141 coefficient(wavelength): None = an exception *)
Definition coefficient_at (d : option dist) (w : R) : option R := match d with Some d => dist_call d w | None => None end.

(** ** material/utils.py 51-56 *)
Definition gaussian (x c1 c2 c3 : R) : R := c1 * exp (- (((c2 - x) / c3) * ((c2 - x) / c3))).
(** np.heaviside(d, 0.5) *)
Definition heaviside (d : R) : R := if Rltb d 0 then 0 else if Rltb 0 d then 1 else 1 / 2.
Definition bandgap (x cutoff alpha : R) : R := (1 - heaviside (x - cutoff)) * alpha.

(** ** component.py 366-378: self._ems_dist.  An emission that is a number, like any other type,
    is refused. *)
Inductive emission := ENone | EArray (rows : list (R * R)) | EList (items : list item) | EOther.
Definition ems_dist (e : emission) (x : option (list R)) (hist : bool) : outcome dist :=
  match e with
  | ENone => from_functions x [Fn (fun x => Fin (gaussian x 1 600 40))] hist
  | EArray rows => distribution (map fst rows) (map snd rows) hist
  | EList items => match x with None => ValueError | Some _ => from_functions x items hist end
  | EOther => ValueError
  end.
(** 355-378 Luminophore(coefficient, emission, x=x, hist=hist): both spectra *)
Definition luminophore (c : coefficient) (e : emission) (x : option (list R)) (hist : bool) : outcome (option dist * dist) :=
  match abs_dist c x hist with
  | Made a => match ems_dist e x hist with Made d => Made (a, d) | ValueError => ValueError | TypeError => TypeError | IndexError => IndexError end
  | ValueError => ValueError | TypeError => TypeError | IndexError => IndexError
  end.

(** ** material/utils.py 59-87 *)
Definition h_planck : R := 662607015 / 10 ^ 8 / 10 ^ 34.
Definition c_light : R := 299792458.
Definition q_electron : R := 160217662 / 10 ^ 8 / 10 ^ 19.
Definition k_boltzmann : R := 138064852 / 10 ^ 8 / 10 ^ 23.
Definition conversion_constant : R := h_planck * c_light / q_electron * 10 ^ 9.
(** Rows with x = 0 (inf) are not modelled. *)
Definition convert_spectrum (spec : list (R * R)) : list (R * R) := map (fun '(x, y) => (conversion_constant / x, y)) spec.
Definition expm1 (x : R) : R := exp x - 1.
Definition thermal (T mu : R) (p : R * R) : R :=
  let '(x, y) := p in
  y * 2 * (x * x) / (c_light * c_light * (h_planck / q_electron * (h_planck / q_electron) * (h_planck / q_electron))) /
  expm1 ((x - mu) / (k_boltzmann / q_electron * T)).
(** np.max raises ValueError on an empty array: None *)
Definition thermodynamic_emission (abs_spec : list (R * R)) (T mu : R) : option (list (R * R)) :=
  let energy_spec := convert_spectrum abs_spec in
  match map (thermal T mu) energy_spec with
  | [] => None
  | e :: es =>
      let m := np_max e es in
      Some (convert_spectrum (combine (map fst energy_spec) (map (fun v => v / m) (e :: es))))
  end.
