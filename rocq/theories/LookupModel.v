(** Model of how the files named in a document are found and read: load_spectrum and parse_mesh of
    pvtrace/cli/parse.py (228-243, 130-138), parse (72-80), Studio.apply of
    pvtrace/studio/server.py (51-66) and the functions of os.path that they use (posixpath).

    Paths are strings; [resolve] is what opening one means to the operating system (no symbolic
    links; the working directory as its parts). *)
From Coq Require Import List Bool String Ascii Reals Arith.
From Verif Require Import FilesModel.
Import ListNotations.
Open Scope string_scope.

(** ** Opening a path *)
Fixpoint split_from (acc s : string) : list string :=
  match s with
  | EmptyString => [acc]
  | String c r => if Ascii.eqb c "/" then acc :: split_from "" r else split_from (acc ++ String c "") r
  end.
Definition split (s : string) : list string := split_from "" s.
(** one part of a path: nothing and "." stay, ".." goes up (in the root it stays), a name goes down *)
Definition step (dir : path) (c : string) : path :=
  if String.eqb c "" || String.eqb c "." then dir else if String.eqb c ".." then removelast dir else (dir ++ [c])%list.
Definition walk (dir : path) (s : string) : path := fold_left step (split s) dir.
(** os.path.isabs: startswith('/') *)
Definition isabs (s : string) : bool := match s with String c _ => Ascii.eqb c "/" | EmptyString => false end.
Definition resolve (cwd : path) (s : string) : path := walk (if isabs s then [] else cwd) s.

(** ** posixpath *)
(** join(a, b) *)
Definition join (a b : string) : string :=
  if isabs b then b else if String.eqb a "" || endswith a "/" then a ++ b else a ++ "/" ++ b.
(** p[:p.rfind('/') + 1] *)
Fixpoint has_slash (s : string) : bool := match s with EmptyString => false | String c r => Ascii.eqb c "/" || has_slash r end.
Fixpoint head (p : string) : string :=
  match p with EmptyString => "" | String c r => if Ascii.eqb c "/" || has_slash r then String c (head r) else "" end.
(** s.rstrip('/') *)
Fixpoint rstrip (s : string) : string :=
  match s with
  | EmptyString => ""
  | String c r => let r' := rstrip r in if Ascii.eqb c "/" && String.eqb r' "" then "" else String c r'
  end.
(** dirname: if head and head != '/' * len(head): head = head.rstrip('/') *)
Definition dirname (p : string) : string := let h := head p in if String.eqb (rstrip h) "" then h else rstrip h.
(** the string of an absolute directory *)
Fixpoint slashed (l : path) : string := match l with [] => "" | c :: r => "/" ++ c ++ slashed r end.
Definition abs_string (dir : path) : string := match dir with [] => "/" | _ => slashed dir end.

(** ** The code *)
(** 231-233: os.path.abspath names the file that the joined path names *)
Definition spectrum_file (cwd : path) (working_directory filename : string) : path :=
  if negb (isabs filename) then resolve cwd (join working_directory filename) else resolve cwd filename.
(** 131-136 *)
Definition mesh_file (cwd : path) (working_directory filename : string) : path :=
  if isabs filename then resolve cwd filename else resolve cwd (join working_directory filename).
(** 77: the command line parses the document itself *)
Definition cli_file (cwd : path) (document filename : string) : path := spectrum_file cwd (dirname document) filename.
Definition cli_mesh (cwd : path) (document filename : string) : path := mesh_file cwd (dirname document) filename.
(** server.py 58-64: the studio parses a temporary file in os.getcwd() *)
Definition studio_temp (cwd : path) (name : string) : string := join (abs_string cwd) name.
Definition studio_file (cwd : path) (temp filename : string) : path := spectrum_file cwd (dirname (studio_temp cwd temp)) filename.
Definition studio_mesh (cwd : path) (temp filename : string) : path := mesh_file cwd (dirname (studio_temp cwd temp)) filename.

(** ** 236-243: pandas.read_csv(filename, usecols=[0, 1, 2], index_col=0), then columns 0 and 1.
    A file is its rows of cells, all of the same length; the first row is the header, whatever it
    contains.  [Refused]: no rows, or a header with fewer than three cells (both ValueError).
    [Words]: a cell of the two columns is not a number (the array is then of objects). *)
Inductive cell := Num (x : R) | Word (w : string).
Inductive loaded := Refused | Words | Spectrum (l : list (R * R)).
Fixpoint load_rows (rows : list (list cell)) : loaded :=
  match rows with
  | [] => Spectrum []
  | (_ :: Num x :: Num y :: _) :: rest => match load_rows rest with Spectrum l => Spectrum ((x, y) :: l) | r => r end
  | _ => Words
  end.
Definition load_csv (file : list (list cell)) : loaded :=
  match file with
  | [] => Refused
  | header :: rows => if (List.length header <? 3)%nat then Refused else load_rows rows
  end.
(** cli/spectrum.py 44-48 and cli/time.py 44-48: DataFrame(samples, columns=[name], index=throw_ids).to_csv *)
Fixpoint output_rows (result : list (R * R)) : list (list cell) :=
  match result with [] => [] | (throw, sample) :: rest => [Num throw; Num sample] :: output_rows rest end.
Definition output_csv (name : string) (result : list (R * R)) : list (list cell) := [Word ""; Word name] :: output_rows result.
