(** Model of the files the studio writes: uploads and saving (pvtrace/studio/server.py 139-186 and
    57-69 for the temporary file of apply). *)
From Coq Require Import List Bool Arith String Ascii.
Import ListNotations.
Open Scope string_scope.

(** os.path.basename (posixpath): p[p.rfind('/') + 1:] *)
Fixpoint basename_from (acc : string) (p : string) : string :=
  match p with
  | EmptyString => acc
  | String c r => if Ascii.eqb c "/"%char then basename_from "" r else basename_from (acc ++ String c "") r
  end.
Definition basename (p : string) : string := basename_from "" p.

(** str.lower for ASCII letters (no other character is lowered to an ASCII letter of the suffixes) *)
Definition lower_ascii (c : ascii) : ascii :=
  let n := nat_of_ascii c in if (65 <=? n)%nat && (n <=? 90)%nat then ascii_of_nat (n + 32) else c.
Fixpoint lower (s : string) : string :=
  match s with EmptyString => "" | String c r => String (lower_ascii c) (lower r) end.
(** str.endswith *)
Definition endswith (s suffix : string) : bool :=
  let n := length s in let m := length suffix in
  (m <=? n)%nat && String.eqb (substring (n - m) m s) suffix.

(** A path as the parts of a pathlib.Path; files as a map from paths to contents.  Symbolic links
    are not modelled. *)
Definition path := list string.
Definition files := path -> option string.
Definition path_eqb (a b : path) : bool := if list_eq_dec string_dec a b then true else false.
Definition write_text (fs : files) (p : path) (content : string) : files := fun q => if path_eqb q p then Some content else fs q.
Definition unlink (fs : files) (p : path) : files := fun q => if path_eqb q p then None else fs q.
(** Path.parent / name, for a name without '/' that is not "." *)
Definition sibling (p : path) (name : string) : path := (removelast p ++ [name])%list.

(** upload_file 161-174: the new files and the saved name; None = status 422 *)
Definition upload (document_path : option path) (fs : files) (payload_name content : string) : files * option string :=
  match document_path with
  | None => (fs, None)
  | Some doc =>
      let name := basename payload_name in
      if String.eqb name "" || negb (endswith (lower name) ".csv" || endswith (lower name) ".txt") then (fs, None)
      else (write_text fs (sibling doc name) content, Some name)
  end.
(** save_document 176-181 *)
Definition save (document_path : option path) (document : string) (fs : files) : files :=
  match document_path with None => fs | Some doc => write_text fs doc document end.
(** Studio.apply 57-66: a new temporary file in the working directory, removed again.  [temp] is
    the name chosen by NamedTemporaryFile, which is not an existing file. *)
Definition apply_files (temp : path) (text : string) (fs : files) : files := unlink (write_text fs temp text) temp.

(** The requests that touch files.  [accepted]: parsing and compiling succeeded, so that the
    document is replaced. *)
Inductive request :=
| Put (temp : path) (text : string) (accepted : bool)
| Upload (name content : string)
| Save.
Definition server_step (document_path : option path) (st : string * files) (r : request) : string * files :=
  let '(document, fs) := st in
  match r with
  | Put temp text accepted => (if accepted then text else document, apply_files temp text fs)
  | Upload name content => (document, fst (upload document_path fs name content))
  | Save => (document, save document_path document fs)
  end.
(** temporary files are new *)
Fixpoint fresh_temps (document_path : option path) (st : string * files) (rs : list request) : Prop :=
  match rs with
  | [] => True
  | r :: rest => match r with Put temp _ _ => snd st temp = None | _ => True end /\ fresh_temps document_path (server_step document_path st r) rest
  end.
Definition serve (document_path : option path) (st : string * files) (rs : list request) : string * files :=
  fold_left (server_step document_path) rs st.
