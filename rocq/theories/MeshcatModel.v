(** Model of pvtrace/scene/renderer.py 50-105: MeshcatRenderer draws a scene.

    The Meshcat page is a third-party program.  What is assumed about it: an address like
    "a/b/c" names the node c below b below a; every node has one transformation and may
    have one object; setting either replaces the old one; an object is shown with the
    product of the transformations of the nodes down to its own (the comment at 60-62 says
    the same).  Materials and colours are left out, and so is the constant first part
    "meshcat" of every address. *)
From Coq Require Import Reals List Bool Arith Ascii String.
From Verif Require Import Base Vec RendererModel.
Import ListNotations.
Open Scope R_scope.

(** ** The scene *)
(** The isinstance tests of 77-102.  A Box is a Mesh (geometry/box.py 11); a mesh is its
    triangles; [Unsupported] is any other geometry class. *)
Definition triangle := (vec * vec * vec)%type.
Inductive geometry := Sphere (radius : R) | Cylinder (length radius : R) | Mesh (triangles : list triangle) | Unsupported.
(** scene/node.py 20-34: the name of a node is None unless given *)
Inductive vnode := VNode (name : option string) (pose : rigid) (geo : option geometry) (children : list vnode).
Definition v_name (t : vnode) := match t with VNode n _ _ _ => n end.
Definition v_pose (t : vnode) := match t with VNode _ p _ _ => p end.
Definition v_geo (t : vnode) := match t with VNode _ _ g _ => g end.
Definition v_children (t : vnode) := match t with VNode _ _ _ cs => cs end.

(** A node as the loop sees it: the names of node.path (from the root to the node), and
    node.transformation_to(node.root) (node.py 73-95: the product of the poses below the
    root, the identity for the root; see C45) *)
Record visit := Visit { vi_names : list (option string); vi_to_root : rigid; vi_node : vnode }.
Definition kids (v : visit) : list visit :=
  map (fun c => Visit (vi_names v ++ [v_name c]) (rcomp (vi_to_root v) (v_pose c)) c) (v_children (vi_node v)).
(** anytree's LevelOrderIter: one row of the tree after the other *)
Fixpoint rows (fuel : nat) (row : list visit) : list visit :=
  match fuel with
  | O => []
  | S fuel => match row with [] => [] | _ => row ++ rows fuel (flat_map kids row) end
  end.
Fixpoint height (t : vnode) : nat :=
  match t with VNode _ _ _ cs => S (fold_right Nat.max O (map height cs)) end.
Definition level_order (root : vnode) : list visit := rows (height root) [Visit [v_name root] rid root].

(** ** The page *)
(** vis[pathname]: the address is split at "/"; an empty part leads back to the top *)
Definition bar : ascii := "|"%char.
Definition slash : ascii := "/"%char.
Fixpoint split (s : string) : list string :=
  match s with
  | EmptyString => [EmptyString]
  | String c s' =>
      if Ascii.eqb c slash then EmptyString :: split s'
      else match split s' with [] => [String c EmptyString] | w :: ws => String c w :: ws end
  end.
Definition address (s : string) : list string :=
  fold_left (fun path part => if String.eqb part EmptyString then [] else path ++ [part]) (split s) [].

(** The objects of Meshcat's own classes g.Sphere, g.Cylinder (along y) and StlMeshGeometry *)
Inductive object := OSphere (radius : R) | OCylinder (height radius : R) | OMesh (triangles : list triangle).
Record page := Page { objects : list (list string * object); transforms : list (list string * rigid) }.
Definition blank : page := Page [] [].
Definition same_path (a b : list string) : bool := if list_eq_dec string_dec a b then true else false.
Definition put {A} (k : list string) (a : A) (l : list (list string * A)) : list (list string * A) :=
  (k, a) :: filter (fun x => negb (same_path (fst x) k)) l.
Definition transform_at (l : list (list string * rigid)) (k : list string) : rigid :=
  match find (fun x => same_path (fst x) k) l with Some (_, t) => t | None => rid end.
Definition set_object (k : list string) (o : object) (p : page) : page := Page (put k o (objects p)) (transforms p).
Definition set_transform (k : list string) (t : rigid) (p : page) : page := Page (objects p) (put k t (transforms p)).

(** The product of the transformations down to a path *)
Fixpoint world (l : list (list string * rigid)) (above below : list string) : rigid :=
  match below with
  | [] => transform_at l above
  | x :: below => rcomp (transform_at l above) (world l (above ++ [x]) below)
  end.

(** ** Drawing *)
Inductive exn := ExType | ExNotImplemented.
(** 63: " | ".join([x.name for x in node.path]); a name None is a TypeError *)
Fixpoint join (names : list (option string)) : option string :=
  match names with
  | [] => Some EmptyString
  | [n] => n
  | n :: rest => match n, join rest with Some a, Some b => Some (a ++ " | " ++ b)%string | _, _ => None end
  end.
(** 70-105 add_geometry *)
Definition add_geometry (g : geometry) (pathname : string) (t : rigid) (p : page) : page * option exn :=
  let k := address pathname in
  match g with
  | Sphere r => (set_transform k t (set_object k (OSphere r) p), None)
  | Cylinder l r => (set_transform k (cylinder_transform t) (set_object k (OCylinder l r) p), None)
  | Mesh ts => (set_transform k t (set_object k (OMesh ts) p), None)
  | Unsupported => (p, Some ExNotImplemented)
  end.
(** 58-68 add_node *)
Definition add_node (v : visit) (p : page) : page * option exn :=
  match join (vi_names v) with
  | None => (p, Some ExType)
  | Some pathname =>
      match v_geo (vi_node v) with
      | None => (p, None)
      | Some g => add_geometry g pathname (vi_to_root v) p
      end
  end.
Fixpoint add_nodes (vs : list visit) (p : page) : page * option exn :=
  match vs with
  | [] => (p, None)
  | v :: vs => match add_node v p with (p', None) => add_nodes vs p' | r => r end
  end.
(** 50-56 render: all nodes in level order but the root, which comes first.  The parameter
    show_root is not used in the code. *)
Definition render (show_root : bool) (root : vnode) (p : page) : page * option exn :=
  add_nodes (tl (level_order root)) p.
(** 107-109 remove: vis.delete() *)
Definition remove (p : page) : page := blank.
