(** Model of the loading of imported files:
    Projects/Core/Core/VirtualMachine/VirtualMachine.cpp with Projects/Utils/Tools/Files.cpp.

    What is simplified:
    - the file system has directories and files, no links, and does not change while the files are loaded;
    - what a file declares is read by Decl_Model; whether the declarations are refused for another reason (unknown or
      duplicate types) is an arbitrary function of the files read before, and so is whether an extension can be loaded;
    - realpath(3) is modelled as the GNU C library documents it: of a path that does not exist the part up to the first
      missing name is delivered. A path through a file leaves the buffer of GetFullname unset, which is undefined behaviour. *)
From Verif Require Import Base Text_Model Tok_Model Conf_Model Decl_Model.

Inductive entry := Dir | File (content : str).
(** The entries of the file system by the names on their path; the root directory is always there. *)
Definition fsys := list (list str * entry).
Fixpoint lookup_entry (fs : fsys) (p : list str) : option entry :=
  match fs with [] => None | (q, e) :: r => if bool_decide (p = q) then Some e else lookup_entry r p end.
Definition entry_at (fs : fsys) (p : list str) : option entry := match p with [] => Some Dir | _ => lookup_entry fs p end.

(** The names of a path, between the slashes. *)
Fixpoint names_of (s : str) : list str :=
  match s with
  | [] => [[]]
  | c :: s => if bool_decide (c = chr 47) then [] :: names_of s
              else match names_of s with [] => [[c]] | n :: r => (c :: n) :: r end
  end.
Inductive found := At (p : list str) | Missing (p : list str) | NotDir.
Fixpoint walk (fs : fsys) (acc : list str) (ns : list str) : found :=
  match ns with
  | [] => At acc
  | n :: r =>
      match entry_at fs acc with
      | Some Dir =>
          if str_eqb n [] || str_eqb n ($".") then walk fs acc r
          else if str_eqb n ($"..") then walk fs (removelast acc) r
          else match entry_at fs (acc ++ [n]) with Some _ => walk fs (acc ++ [n]) r | None => Missing (acc ++ [n]) end
      | Some (File _) => NotDir
      | None => Missing acc
      end
  end.
(** The text of a path without [.], [..] and empty names. *)
Definition spell (p : list str) : str := match p with [] => $"/" | _ => concat (map (fun n => $"/" ++ n) p) end.

Section Load.
Context (fs : fsys) (cwd : list str).

Definition find_path (s : str) : found :=
  match s with c :: _ => walk fs (if bool_decide (c = chr 47) then [] else cwd) (names_of s) | [] => Missing cwd end.
(** exists, Files.cpp:25-42 *)
Definition file_exists (s : str) : bool := match s, find_path s with _ :: _, At _ => true | _, _ => false end.
(** The bytes an ifstream delivers: none for a directory. *)
Definition content_of (s : str) : str :=
  match find_path s with At p => match entry_at fs p with Some (File t) => t | _ => [] end | _ => [] end.
(** GetFullname, 93-112; realpath fails for the empty text without touching the buffer *)
Definition full_name (s : str) : res str :=
  match s with
  | [] => UB
  | _ => match find_path s with At p | Missing p => Ok (spell p) | NotDir => UB end
  end.
(** BuildPath, 44-49 *)
Definition real_path (folder file : str) : res str := full_name (build_path folder file).
(** buildFilename, VirtualMachine.cpp:464-492 *)
Definition build_filename (folder file : str) : res str :=
  let! path := real_path folder file in
  if file_exists (path ++ $".slang") then Ok (path ++ $".slang")
  else if file_exists (path ++ $".os") then Ok (path ++ $".os")
  else
    let! all := real_path path ($"/All") in
    if file_exists (all ++ $".slang") then Ok (all ++ $".slang") else Ok (all ++ $".os").

(** mLibraryFolders, a std::set, in its order; mImportedLibraries, newest first *)
Record vm := VM { v_folders : list str; v_imported : list str }.
Fixpoint insert_folder (f : str) (l : list str) : list str :=
  match l with
  | [] => [f]
  | g :: r => if str_ltb f g then f :: l else if str_ltb g f then g :: insert_folder f r else l
  end.
(** addLibraryFolder, 127-142 *)
Definition add_folder (folder : str) (v : vm) : res vm :=
  match folder with
  | [] => Ok v
  | _ => let! f := full_name folder in Ok (VM (insert_folder (f ++ $"/") (v_folders v)) (v_imported v))
  end.
(** The loop of init, 235-246, over the folders of the environment variable: every round removes a character at least. *)
Fixpoint env_loop (n : nat) (path : str) (v : vm) : res vm :=
  match path, n with
  | [], _ => Ok v
  | _, O => Fuel
  | _, S n => let '(l, r) := split_by path (chr 58) in let! v1 := add_folder l v in env_loop n r v1
  end.
Definition init_folders (path : str) (v : vm) : res vm := env_loop (length path) path v.

(** What the declarations refer to: extensions and libraries, in the order of the text (Analyser.cpp:362-367). *)
Fixpoint refers (extension : bool) (d : decl) : list str :=
  match d with
  | DImport e p => if Bool.eqb e extension then [p] else []
  | DNamespace _ _ _ ds => concat (map (refers extension) ds)
  | DObject _ _ _ _ _ (Some ds) | DInterface _ _ _ _ ds => concat (map (refers extension) ds)
  | _ => []
  end.
Definition imports (ds : list decl) : list str := concat (map (refers false) ds).
Definition extensions (ds : list decl) : list str := concat (map (refers true) ds).

Context (meaning : list str -> str -> res unit)   (* refusal of the declarations of a file, given the files read before *)
        (loads : str -> bool).                    (* whether an extension can be loaded *)

(** processFile, Analyser.cpp:704-720, and processString *)
Definition read_file (before : list str) (name content : str) : res (list decl) :=
  let! ds := analyse_text content in let! _ := meaning before name in Ok ds.
(** loadExtension, 265-283 *)
Definition load_extensions (folder : str) (l : list str) : res unit :=
  if forallb (fun e => loads (folder ++ e ++ $".so")) l then Ok tt else Throw "could not load extension".

(** The first of the folders from which the file can be loaded, 332-341 and 165-171. *)
Fixpoint try_folders (load : str -> vm -> res (bool * vm)) (file : str) (folders : list str) (v : vm) : res vm :=
  match folders with
  | [] => Throw "could not resolve import"
  | f :: r =>
      let! name := build_filename f file in
      let! x := load name v in
      if fst x then Ok (snd x) else try_folders load file r (snd x)
  end.
(** The loop 317-325: files next to the importing one; delivers the imports that are not there. *)
Fixpoint relative (load : str -> vm -> res (bool * vm)) (folder : str) (files : list str) (v : vm) : res (list str * vm) :=
  match files with
  | [] => Ok ([], v)
  | f :: r =>
      let! name := build_filename folder f in
      let! x := load name v in
      let! y := relative load folder r (snd x) in
      Ok (if fst x then fst y else f :: fst y, snd y)
  end.
(** The loops 328-345 and 161-176 over the imports. *)
Fixpoint from_folders (load : str -> vm -> res (bool * vm)) (folders : vm -> list str) (files : list str) (v : vm) : res vm :=
  match files with
  | [] => Ok v
  | f :: r => let! v1 := try_folders load f (folders v) v in from_folders load folders r v1
  end.

(** loadLibrary, 285-348 *)
Fixpoint load (n : nat) (library : str) (v : vm) {struct n} : res (bool * vm) :=
  match n with
  | O => Fuel
  | S n =>
      if negb (file_exists library) then Ok (false, v)
      else if bool_decide (library ∈ v_imported v) then Ok (true, v)
      else
        let current := extract_pathname library in
        let! v1 := add_folder current v in
        let v2 := VM (v_folders v1) (library :: v_imported v1) in
        let! ds := read_file (v_imported v1) library (content_of library) in
        let! _ := load_extensions current (extensions ds) in
        let folders := insert_folder current (v_folders v2) in
        let! x := relative (load n) current (imports ds) v2 in
        let! v3 := from_folders (load n) (fun _ => folders) (fst x) (snd x) in
        Ok (true, v3)
  end.

(** createScript, 144-204, up to the generation of the trees. Every library is loaded once, so that many rounds are enough
    (Import_Props, C67_terminates). *)
Definition create_script (name content : str) (v : vm) : res vm :=
  let! ds := read_file (v_imported v) name content in
  let! _ := match extensions ds, v_folders v with
            | [], _ => Ok tt
            | _ :: _, [] => UB
            | l, folder :: _ => load_extensions folder l
            end in
  from_folders (load (S (S (length fs)))) v_folders (imports ds) v.
(** createScriptFromFile, 206-229, with a fresh virtual machine; [env] is the value of the variable SLANG_LIBRARY *)
Definition script_from_file (env filename : str) : res vm :=
  if negb (file_exists filename) then Throw "file not found"
  else
    let! name := full_name filename in
    let! v1 := add_folder (extract_pathname name) (VM [] []) in
    let! v2 := init_folders env v1 in
    create_script name (content_of filename) v2.
End Load.
