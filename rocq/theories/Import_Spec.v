(** What importing means. *)
From Verif Require Import Base Text_Model Tok_Model Conf_Model Decl_Model Import_Model.

(** ** Names and paths *)
Definition good_name (n : str) : Prop := n <> [] /\ chr 47 ∉ n /\ n <> $"." /\ n <> $"..".
(** A name in an import statement *)
Definition plain (n : str) : Prop := n <> [] /\ chr 47 ∉ n /\ chr 46 ∉ n.
Fixpoint dots (ns : list str) : str :=
  match ns with [] => [] | [n] => n | n :: r => n ++ $"." ++ dots r end.
(** The parent of every entry is a directory, and no name contains a slash. *)
Definition tree_ok (fs : fsys) : Prop :=
  (forall p n e, entry_at fs (p ++ [n]) = Some e -> entry_at fs p = Some Dir) /\
  (forall p e, entry_at fs p = Some e -> Forall good_name p).
Definition there (fs : fsys) (p : list str) : Prop := entry_at fs p <> None.
(** The text of a folder: with a slash at its end. *)
Definition folder_text (d : list str) (t : str) : Prop := t = spell d ++ $"/" \/ (d = [] /\ t = $"/").

(** [import a.b.c] seen from the directory [d]: d/a/b/c.slang, d/a/b/c.os, d/a/b/c/All.slang, d/a/b/c/All.os, in this order. *)
Definition candidates (d ns : list str) (n : str) : list (list str) :=
  [d ++ ns ++ [n ++ $".slang"]; d ++ ns ++ [n ++ $".os"]; d ++ ns ++ [n; $"All.slang"]; d ++ ns ++ [n; $"All.os"]].
Definition is_there (fs : fsys) (p : list str) : bool := match entry_at fs p with Some _ => true | None => false end.
Definition first_there (fs : fsys) (l : list (list str)) : option (list str) := List.find (is_there fs) l.

(** The declaration [d] imports [i]: itself, or in the body of a namespace, an object or an interface. *)
Inductive declares_import (i : str) : decl -> Prop :=
| import_here : declares_import i (DImport false i)
| import_in_namespace v f path ds d : d ∈ ds -> declares_import i d -> declares_import i (DNamespace v f path ds)
| import_in_object v f l t anc ds d : d ∈ ds -> declares_import i d -> declares_import i (DObject v f l t anc (Some ds))
| import_in_interface v f t anc ds d : d ∈ ds -> declares_import i d -> declares_import i (DInterface v f t anc ds).

(** ** Which file an import loads *)
Section Spec.
Context (fs : fsys) (cwd : list str).

(** The file that [i] names in a folder, if it is there. *)
Definition names_file (folder i g : str) : Prop := build_filename fs cwd folder i = Ok g /\ file_exists fs cwd g = true.
Definition names_none (folder i : str) : Prop := exists g, build_filename fs cwd folder i = Ok g /\ file_exists fs cwd g = false.

(** What the text of a file imports. *)
Definition text_imports (text i : str) : Prop := exists ds d, analyse_text text = Ok ds /\ d ∈ ds /\ declares_import i d.
Definition file_imports (f i : str) : Prop := text_imports (content_of fs cwd f) i.

(** The import [i] in the file [f] means [g]: the file next to [f], or else one in the first of the folders [lib], in the order
    of their names, unless a folder that became known later comes before it. *)
Definition library_file (lib known : list str) (i g : str) : Prop := exists folder,
  folder ∈ known /\ names_file folder i g /\ forall other, other ∈ lib -> str_ltb other folder = true -> names_none other i.
Definition means (lib known : list str) (f i g : str) : Prop :=
  names_file (extract_pathname f) i g \/
  (names_none (extract_pathname f) i /\ library_file lib (extract_pathname f :: known) i g).

(** The folders known in the end: those given at the start and those of the files that were loaded. *)
Definition folder_of_file (f o : str) : Prop := exists p, full_name fs cwd (extract_pathname f) = Ok p /\ o = p ++ $"/".

(** The files that a script needs: its imports, their imports and so on. *)
Inductive needed (lib known : list str) (script : str) : str -> Prop :=
| needed_script i g : text_imports script i -> library_file lib known i g -> needed lib known script g
| needed_file f i g : needed lib known script f -> file_imports f i -> means lib known f i g -> needed lib known script g.

(** ** The folders at the start *)
Fixpoint colons (parts : list str) : str :=
  match parts with [] => [] | [p] => p | p :: r => p ++ $":" ++ colons r end.
(** The folder of the script and the folders of the environment variable. *)
Definition start_folders (parts : list str) (script : str) (lib : list str) : Prop := forall o, o ∈ lib <->
  (exists s, full_name fs cwd script = Ok s /\ folder_of_file s o) \/
  (exists part p, part ∈ parts /\ part <> [] /\ full_name fs cwd part = Ok p /\ o = p ++ $"/").
Definition names_dir (part : str) : Prop := exists d, find_path fs cwd part = At d /\ entry_at fs d = Some Dir.
(** The import statement has dots between plain names. *)
Definition dotted (i : str) : Prop := exists ns, ns <> [] /\ Forall plain ns /\ i = dots ns.
(** Files have an extension; no name has a backslash in it. *)
Definition tidy : Prop :=
  (forall p n c, entry_at fs (p ++ [n]) = Some (File c) -> chr 46 ∈ n) /\
  (forall p e, entry_at fs p = Some e -> Forall (fun n => chr 92 ∉ n) p).

(** The files that loading may come to: as [needed], where a folder is known from the start or is that of another such file. *)
Inductive wanted (lib : list str) (script : str) : str -> Prop :=
| wanted_script known i g : Forall (fun o => o ∈ lib \/ exists f, wanted lib script f /\ folder_of_file f o) known ->
    text_imports script i -> library_file lib known i g -> wanted lib script g
| wanted_file known f i g : Forall (fun o => o ∈ lib \/ exists f, wanted lib script f /\ folder_of_file f o) known ->
    wanted lib script f -> file_imports f i -> means lib known f i g -> wanted lib script g.
End Spec.
