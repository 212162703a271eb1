(** Model of the placement of nodes by a document (pvtrace/cli/parse.py 432-457), of coordinate
    conversion between named nodes, and of moving a node in the viewport of the studio
    (pvtrace/studio/server.py 345-359). *)
From Coq Require Import Reals ZArith List Bool Arith String.
From Verif Require Import Base Vec TransformModel SpecModel LiveModel.
Import ListNotations.
Open Scope list_scope.
Open Scope nat_scope.
Open Scope string_scope.

(** A list of three numbers as a vector.  The schema allows other lengths: numpy refuses them
    (a list of one number is broadcast; this is not modelled). *)
Definition vec_of (l : list R) : option vec := match l with [x; y; z] => Some (V x y z) | _ => None end.
Definition coords (v : vec) : list R := [vx v; vy v; vz v].

Section Place.
  (** numpy.linalg.eig as used by look_at: the eigenvector for a direction *)
  Variable eig : vec -> vec.

  (** 450-457; the Node is created at the origin (Transformable.__init__).  `if location:` skips
      a missing and an empty list.  None = an exception or a pose with nan *)
  Definition place_node (s : node_spec) : option tf :=
    let t := tf_init None in
    let located := match ns_location s with
                   | None | Some [] => Some t
                   | Some l => match vec_of l with Some v => Some (set_location t v false) | None => None end
                   end in
    match located with
    | None => None
    | Some t => match ns_direction s with
                | None | Some [] => Some t
                | Some l => match vec_of l with Some b => look_at t b (eig b) | None => None end
                end
    end.

  (** The placed nodes: parents (make_tree) and poses. *)
  Record placed := Placed { p_parents : forest; p_poses : dict rigid }.
  Definition place_document (d : document) : option placed :=
    match make_tree (map (fun '(k, s) => (k, ns_parent s)) (d_nodes d)) with
    | None => None
    | Some parents =>
        match map_opt (fun '(k, s) => match place_node s with Some t => Some (k, pose t) | None => None end) (d_nodes d) with
        | None => None
        | Some poses => Some (Placed parents poses)
        end
    end.
End Place.

(** Nodes numbered in document order, for the conversions of node.py 73-130 *)
Fixpoint index (k : string) (l : list string) : nat :=
  match l with [] => 0 | x :: r => if String.eqb x k then 0 else S (index k r) end.
Definition frames (s : placed) : hierarchy :=
  let names := keys (p_parents s) in
  Hier (fun i => map (fun k => index k names) (rev (path_up (List.length (p_parents s)) (p_parents s) (nth i names ""))))
       (fun i => match get (nth i names "") (p_poses s) with Some g => g | None => rid end).
(** a.point_to_node(p, b) *)
Definition convert (s : placed) (a : string) (p : vec) (b : string) : vec :=
  point_to_node (frames s) (index a (keys (p_parents s))) p (index b (keys (p_parents s))).

(** server.py 345-359: "move".  [s] is studio.scene, parsed from the document [d]. *)
Definition move (s : placed) (name : string) (world : vec) (d : document) : option document :=
  match get name (p_parents s) with
  | None => None                                    (* KeyError *)
  | Some None => None                               (* "Cannot move the root node." *)
  | Some (Some parent) =>
      let local := convert s "world" world parent in
      match get name (d_nodes d) with
      | None => None
      | Some n => Some (Doc (d_components d)
                            (put name (NodeSpec (ns_body n) (ns_parent n) (Some (coords (vround local 6))) (ns_direction n) (ns_record n)) (d_nodes d))
                            (d_recorders d))
      end
  end.
