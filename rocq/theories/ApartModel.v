(** Model of the functions of pvtrace/geometry/transformations.py that take a matrix apart:
    translation_from_matrix, reflection_from_matrix, rotation_from_matrix (with its choice of
    eigenvectors), scale_from_matrix, projection_from_matrix and shear_from_matrix, and of the choice
    of the eigenvector in Node.look_at (pvtrace/scene/node.py).
    Scalars are reals.  [None] stands for an exception or a result with nan or inf.

    numpy.linalg.eig is an oracle: a function from the matrix to a list of eigenvalues and eigenvectors,
    complex numbers being pairs of reals.  What is assumed of it is [eig3_spec] and [eig4_spec] below; nothing is assumed of the
    order of the list. *)
From Coq Require Import Reals List Bool.
From Verif Require Import Base Vec OpticsModel TransformModel MatrixModel.
Import ListNotations.
Open Scope R_scope.

(** ** numpy.linalg.eig *)
(** an entry w[i] and the column V[:, i] for a 3x3 matrix *)
Record pair3 := P3 { wre : R; wim : R; vre : vec; vim : vec }.
(** the same for a 4x4 matrix; the column is (vector, fourth coordinate) *)
Record pair4 := P4 { ure : R; uim : R; are : vec; hre : R; aim : vec; him : R }.
Definition eig3_oracle := mat -> list pair3.
Definition eig4_oracle := hom -> list pair4.

(** M v = w v in real and imaginary part; columns of length 1; columns of real eigenvalues are real
    (LAPACK's geev). *)
Definition pair3_ok (m : mat) (e : pair3) : Prop :=
  mvec m (vre e) = vsub (vscale (wre e) (vre e)) (vscale (wim e) (vim e)) /\
  mvec m (vim e) = vadd (vscale (wim e) (vre e)) (vscale (wre e) (vim e)) /\
  dot (vre e) (vre e) + dot (vim e) (vim e) = 1 /\
  (wim e = 0 -> vim e = vzero).
Definition pair4_ok (m : hom) (e : pair4) : Prop :=
  vadd (mvec (lin m) (are e)) (vscale (hre e) (col m)) = vsub (vscale (ure e) (are e)) (vscale (uim e) (aim e)) /\
  dot (row m) (are e) + cor m * hre e = ure e * hre e - uim e * him e /\
  vadd (mvec (lin m) (aim e)) (vscale (him e) (col m)) = vadd (vscale (uim e) (are e)) (vscale (ure e) (aim e)) /\
  dot (row m) (aim e) + cor m * him e = uim e * hre e + ure e * him e /\
  dot (are e) (are e) + hre e * hre e + (dot (aim e) (aim e) + him e * him e) = 1 /\
  (uim e = 0 -> aim e = vzero /\ him e = 0).

(** the determinant of a 4x4 matrix *)
Definition hdet (m : hom) : R :=
  let a := lin m in let c := col m in
  cor m * mdet a - dot (row m) (vadd (vscale (vx c) (cross (r2 a) (r3 a)))
    (vadd (vscale (vy c) (cross (r3 a) (r1 a))) (vscale (vz c) (cross (r1 a) (r2 a))))).
Definition hsub (a b : hom) : hom := Hom (msub (lin a) (lin b)) (vsub (col a) (col b)) (vsub (row a) (row b)) (cor a - cor b).
Fixpoint prod (l : list R) : R := match l with [] => 1 | x :: r => x * prod r end.

(** The list holds every eigenvalue as often as the characteristic polynomial says: det (x - M) is the
    product of x - w[i] (written here with squared absolute values, at real x). *)
Definition eig3_spec (m : mat) (l : list pair3) : Prop :=
  length l = 3%nat /\ (forall e, In e l -> pair3_ok m e) /\
  forall x, mdet (msub (mscale x Vec.mid) m) ^ 2 = prod (map (fun e => (x - wre e) ^ 2 + wim e ^ 2) l).
Definition eig4_spec (m : hom) (l : list pair4) : Prop :=
  length l = 4%nat /\ (forall e, In e l -> pair4_ok m e) /\
  forall x, hdet (hsub (hscale x hid) m) ^ 2 = prod (map (fun e => (x - ure e) ^ 2 + uim e ^ 2) l).

(** ** Choosing columns *)
(** numpy.where(abs(numpy.real(w) - c) < eps)[0], as the list of the columns chosen *)
Definition near3 (c eps : R) (l : list pair3) : list pair3 := filter (fun e => Rltb (Rabs (wre e - c)) eps) l.
Definition near4 (c eps : R) (l : list pair4) : list pair4 := filter (fun e => Rltb (Rabs (ure e - c)) eps) l.
Definition first {A} (l : list A) : option A := match l with [] => None | x :: _ => Some x end.
Definition final {A} (l : list A) : option A := first (rev l).
Definition e8 : R := / 10 ^ 8.
(** point /= point[3]; only the first three coordinates are used afterwards *)
Definition dehom (e : pair4) : option vec := if Reqb (hre e) 0 then None else Some (vscale (/ hre e) (are e)).
(** point: the last column with eigenvalue 1 (e.g. 292-297, divided by its fourth coordinate) *)
Definition fixed_point (eig4 : eig4_oracle) (m : hom) : option vec :=
  match final (near4 1 e8 (eig4 m)) with None => None | Some e => dehom e end.

(** ** The functions *)
(** translation_from_matrix 236-245 *)
Definition translation_from_matrix (m : rigid) : vec := tra m.

(** reflection_from_matrix 274-300 *)
Definition reflection_from_matrix (eig3 : eig3_oracle) (eig4 : eig4_oracle) (m : rigid) : option (vec * vec) :=
  match first (near3 (-1) e8 (eig3 (rot m))) with
  | None => None
  | Some e => match fixed_point eig4 (hom_of m) with None => None | Some p => Some (p, vre e) end
  end.

(** rotation_from_matrix 351-389; the angle is computed by [TransformModel.rotation_from_matrix] *)
Definition rotation_parts (eig3 : eig3_oracle) (eig4 : eig4_oracle) (m : rigid) : option (R * vec * vec) :=
  match final (near3 1 e8 (eig3 (mtrans (rot m)))) with
  | None => None
  | Some e =>
      match fixed_point eig4 (hom_of m) with
      | None => None
      | Some p => let (angle, direction) := rotation_from_matrix (rot m) (vre e) in Some (angle, direction, p)
      end
  end.

(** node.py 55-69: the column chosen in the call of rotation_from_matrix in look_at, and look_at with it
    (the point found there is not used) *)
Definition look_column (eig3 : eig3_oracle) (b : vec) : option vec :=
  match final (near3 1 e8 (eig3 (mtrans (look_matrix b)))) with None => None | Some e => Some (vre e) end.
Definition look_at_with (eig3 : eig3_oracle) (t : tf) (b : vec) : option tf :=
  if np_close (dot zaxis b) (-1) then rotate t PI (V 0 1 0)
  else match look_column eig3 b with None => None | Some w => look_at t b w end.

(** scale_from_matrix 426-464 *)
Definition scale_from_matrix (eig3 : eig3_oracle) (eig4 : eig4_oracle) (m : rigid) : option (R * vec * option vec) :=
  let factor := mtrace (rot m) - 2 in
  let found := match first (near3 factor e8 (eig3 (rot m))) with
               | Some e => match unit_vector (vre e) with Some d => Some (factor, Some d) | None => None end
               | None => Some ((factor + 2) / 3, None)
               end in
  match found, fixed_point eig4 (hom_of m) with
  | Some (f, d), Some o => Some (f, o, d)
  | _, _ => None
  end.

(** projection_from_matrix 527-596: point, normal, direction, perspective, pseudo *)
Definition projection_from_matrix (eig3 : eig3_oracle) (eig4 : eig4_oracle) (m : hom) (pseudo : bool)
  : option (vec * vec * option vec * option vec * bool) :=
  match pseudo, final (near4 1 e8 (eig4 m)) with
  | false, Some e =>
      match dehom e, first (near3 0 e8 (eig3 (lin m))) with
      | Some point, Some e0 =>
          match unit_vector (vre e0) with
          | None => None
          | Some direction =>
              match first (near3 0 e8 (eig3 (mtrans (lin m)))) with
              | Some e1 => match unit_vector (vre e1) with
                           | Some normal => Some (point, normal, Some direction, None, false)
                           | None => None
                           end
              | None => Some (point, direction, None, None, false)
              end
          end
      | _, _ => None
      end
  | _, _ =>
      match final (filter (fun e => Rltb e8 (Rabs (ure e))) (eig4 m)) with
      | None => None
      | Some e =>
          match dehom e with
          | None => None
          | Some point =>
              let normal := vneg (row m) in
              if Reqb (dot point normal) 0 then None
              else let perspective := vscale (/ dot point normal) (col m) in
                Some (point, normal, None, Some (if pseudo then vsub perspective normal else perspective), pseudo)
          end
      end
  end.

(** shear_from_matrix 686-729.  The loop 712-717 keeps the longest of the three cross products, the
    first of equals; with two columns V[2] raises IndexError.  (A fourth column does not exist.) *)
Definition longest (c : vec) (best : R * vec) : R * vec := if Rltb (fst best) (norm c) then (norm c, c) else best.
Definition shear_from_matrix (eig3 : eig3_oracle) (eig4 : eig4_oracle) (m : rigid) : option (R * vec * vec * vec) :=
  match near3 1 (/ 10 ^ 4) (eig3 (rot m)) with
  | [v0; v1; v2] =>
      let '(lenorm, n) := longest (cross (vre v1) (vre v2)) (longest (cross (vre v0) (vre v2))
        (longest (cross (vre v0) (vre v1)) (-1, vzero))) in
      if Reqb lenorm 0 then None
      else let normal := vscale (/ lenorm) n in
        let d := mvec (msub (rot m) Vec.mid) normal in
        match unit_vector d, fixed_point eig4 (hom_of m) with
        | Some direction, Some point => Some (atan (norm d), direction, point, normal)
        | _, _ => None
        end
  | _ => None
  end.
