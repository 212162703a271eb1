(** Model of pvtrace/scene/renderer.py: MeshcatRenderer's drawn histories and the
    placing of cylinders.

    The Meshcat server is a list of drawn objects by path: set_object replaces, delete
    removes.  Colours, radii and materials are left out; a wavelength is always
    drawable.  max_histories=None (nothing is ever removed) is left out. *)
From Coq Require Import Reals List Bool Arith.
From Verif Require Import Base Vec TracerModel LscModel.
Import ListNotations.
Open Scope R_scope.

(** renderer.py 107-109 "rays/n" and 313 "exit/rays/n" *)
Inductive path := Rays (n : nat) | ExitRays (n : nat).
Definition path_eqb (p q : path) : bool :=
  match p, q with
  | Rays a, Rays b | ExitRays a, ExitRays b => Nat.eqb a b
  | _, _ => false
  end.
Inductive drawing := Line (start stop : vec) | Bauble (at_ : vec).

(** renderer.py 38-44.  [scene_objects]: what the server shows. *)
Record renderer := Renderer {
  max_histories : nat; added_index : nat; ray_histories : list (list path); scene_objects : list (path * drawing) }.
Definition new_renderer (m : nat) : renderer := Renderer m 0 [] [].

(** vis[path].set_object(...) and vis[path].delete() *)
Definition delete (p : path) (l : list (path * drawing)) : list (path * drawing) :=
  filter (fun x => negb (path_eqb (fst x) p)) l.
Definition set_object (p : path) (d : drawing) (l : list (path * drawing)) := delete p l ++ [(p, d)].

(** light/ray.py: equality of the dataclass *)
Definition vec_eqb (a b : vec) : bool := Reqb (vx a) (vx b) && Reqb (vy a) (vy b) && Reqb (vz a) (vz b).
Definition src_eqb (a b : src) : bool :=
  match a, b with
  | Light i, Light j => Nat.eqb i j
  | Emitter i j, Emitter k l => Nat.eqb i k && Nat.eqb j l
  | _, _ => false
  end.
Definition ray_eqb (a b : ray) : bool :=
  vec_eqb (position a) (position b) && vec_eqb (direction a) (direction b) && Reqb (wavelength a) (wavelength b) &&
  Reqb (travelled a) (travelled b) && Reqb (duration a) (duration b) && src_eqb (source a) (source b).

Inductive world_segment := Exclude | Short.

(** renderer.py 296-305: where the line of one segment is drawn *)
Definition segment_end (ws : world_segment) (short_length : R) (final start_ray end_ray : ray) : vec :=
  match ws with
  | Short => if ray_eqb end_ray final then vadd (position start_ray) (vscale short_length (direction start_ray))
             else position end_ray
  | Exclude => position end_ray
  end.

(** renderer.py 295-321 over the consecutive pairs; the identifiers of get_next_identifer
    are [Rays] of the counter.  The bauble of identifier n is put at [ExitRays n]. *)
Fixpoint draw_pairs (ws : world_segment) (baubles : bool) (short_length : R) (final : ray)
    (pairs : list ((ray * kind) * (ray * kind))) (n : nat) (objs : list (path * drawing)) (ids : list path)
    : nat * list (path * drawing) * list path :=
  match pairs with
  | [] => (n, objs, ids)
  | (start_part, end_part) :: pairs =>
      let n := S n in
      let objs := set_object (Rays n) (Line (position (fst start_part)) (segment_end ws short_length final (fst start_part) (fst end_part))) objs in
      let ids := ids ++ [Rays n] in
      if baubles && kind_eqb (snd start_part) TRANSMIT then
        let n := S n in
        draw_pairs ws baubles short_length final pairs n (set_object (ExitRays n) (Bauble (position (fst start_part))) objs) (ids ++ [Rays n])
      else draw_pairs ws baubles short_length final pairs n objs ids
  end.

(** renderer.py 279-288: the history up to the first EXIT *)
Fixpoint before_exit (h : history) : option history :=
  match h with
  | [] => None
  | e :: h => if kind_eqb (snd e) EXIT then Some []
              else match before_exit h with None => None | Some l => Some (e :: l) end
  end.
Inductive drawn := Drawn (r : renderer) | Nothing | RaisedError.

(** renderer.py 323-327; deque(maxlen=m).append drops the oldest when full, popleft on
    an empty deque raises (max_histories=0) *)
Definition deque_append {A} (m : nat) (l : list A) (x : A) : list A :=
  let l := l ++ [x] in skipn (length l - m) l.
Definition keep (r : renderer) (ids : list path) : drawn :=
  let q := deque_append (max_histories r) (ray_histories r) ids in
  if Nat.eqb (length q) (max_histories r) then
    match q with
    | [] => RaisedError
    | old :: q => Drawn (Renderer (max_histories r) (added_index r) q (fold_left (fun l p => delete p l) old (scene_objects r)))
    end
  else Drawn (Renderer (max_histories r) (added_index r) q (scene_objects r)).

(** renderer.py 249-329 add_history *)
Definition draw_history (ws : world_segment) (baubles : bool) (short_length : R) (h : history) (r : renderer) : drawn :=
  match h with
  | _ :: _ :: _ =>
      let final := fst (last h (hd (Ray vzero vzero 0 0 0 (Light 0), GENERATE) h)) in
      let '(n, objs, ids) := draw_pairs ws baubles short_length final (combine (removelast h) (tl h)) (added_index r) (scene_objects r) [] in
      keep (Renderer (max_histories r) n (ray_histories r) objs) ids
  | _ => RaisedError
  end.
Definition add_history (ws : world_segment) (baubles : bool) (short_length : R) (h : history) (r : renderer) : drawn :=
  match ws with
  | Short => draw_history ws baubles short_length h r
  | Exclude =>
      match before_exit h with
      | Some h' => if Nat.ltb (length h') 2 then Nothing else draw_history ws baubles short_length h' r
      | None => draw_history ws baubles short_length h r
      end
  end.

(** a user's sequence of calls; a call that raises or returns early changes nothing
    (for max_histories=0 the objects of the call stay, which is not modelled) *)
Definition call := (world_segment * bool * R * history)%type.
Definition after_call (r : renderer) (c : call) : renderer :=
  let '(ws, b, s, h) := c in
  match add_history ws b s h r with Drawn r' => r' | _ => r end.
Definition session (m : nat) (cs : list call) : renderer := fold_left after_call cs (new_renderer m).

(** renderer.py 82-90: a 4x4 matrix with rotation [rot] and translation; swapping the
    columns 1 and 2 *)
Definition swap12 (v : vec) : vec := V (vx v) (vz v) (vy v).
Definition cylinder_transform (g : rigid) : rigid :=
  Rigid (M (swap12 (r1 (rot g))) (swap12 (r2 (rot g))) (swap12 (r3 (rot g)))) (tra g).
