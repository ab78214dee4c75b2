(** Model of the package manager slang-pkg: restrictions, preparing and installing modules.
    Code: /repo/Projects/slang-pkg/Application/Application.cpp,
    /repo/Projects/slang-pkg/Common/{Module,Repository}.cpp, {Dependency,Restriction}.h.
    - The repository server is a function from module name and version text to the document
      module.json; a document the server does not have is an empty file, because download()
      (604-652) ignores the result of the transfer.
    - Simplified: the cache directory is writable, so download() always returns true; unpacking
      an archive (tar) is recorded as an event; messages are left out; the SkipDependencies
      setting is a parameter, as are the architecture and the list of installed modules. *)
From Verif Require Import Base Text_Model SemVer_Model.

(** Dependency.h:20-44: name, version_min, version_max, as texts. *)
Record dep := Dep { d_name : str; d_min : str; d_max : str }.
(** The parts of module.json that are used: Module::loadFromJson, Module.cpp:55-119, and
    installModule 875-900. [j_target] says whether there is a target of a known type. *)
Record doc := Doc { j_arch : str; j_deps : list dep; j_version : str; j_target : bool }.
(** Restriction.h:20-46. *)
Record restriction := Restr { r_name : str; r_min : str; r_max : str }.
(** A module in a Repository: short name and version, Module.cpp:33-40. *)
Definition module : Type := str * version.
Definition ver (s : str) : version := fst (parse_version s).

(** std::set with the element order operator< of Module, Dependency and Restriction
    (Module.cpp:42-45, Dependency.h:34-36, Restriction.h:36-38): by name. insert() keeps an
    element that is there. *)
Section KeySet.
Context {A : Type} (key : A -> str).
Fixpoint place (x : A) (l : list A) : list A :=
  match l with
  | [] => [x]
  | y :: r => if str_ltb (key x) (key y) then x :: l else y :: place x r
  end.
Definition set_add (x : A) (l : list A) : list A :=
  if existsb (fun y => str_eqb (key y) (key x)) l then l else place x l.
Definition set_of (l : list A) : list A := fold_left (fun acc x => set_add x acc) l [].
End KeySet.

(** Repository::addModule, contains, Repository.cpp:20-40. *)
Definition add_module (m : module) (l : list module) : list module := set_add fst m l.
(** Repository::getModule, Repository.cpp:42-52. *)
Definition get_module (n : str) (l : list module) : option module := find (fun m => str_eqb (fst m) n) l.

(** ** Restrictions *)
(** loadRestrictions, 1007-1036: the built-in restriction is inserted first. The members of
    the JSON object come in the order of their names. *)
Definition load_restrictions (product product_version : str) (config : list restriction) : list restriction :=
  set_of r_name (Restr product [] product_version :: config).
(** isValid of a version read from text. *)
Definition valid_text (s : str) : bool := snd (parse_version s).
(** checkRestrictions, 422-438. *)
Fixpoint check_restrictions (rs : list restriction) (m : module) : bool :=
  match rs with
  | [] => true
  | r :: rest =>
      if str_eqb (r_name r) (fst m) then
        if valid_text (r_min r) && version_ltb (snd m) (ver (r_min r)) then false
        else if valid_text (r_max r) && version_ltb (ver (r_max r)) (snd m) then false
        else check_restrictions rest m
      else check_restrictions rest m
  end.

(** checkOutdatedModules, 404-420. *)
Definition outdated (local remote : list module) : list module :=
  fold_left (fun acc m => set_add fst m acc)
    (flat_map (fun l => filter (fun r => str_eqb (fst l) (fst r) && version_ltb (snd l) (snd r)) remote) local) [].

(** ** Preparing *)
(** mMissingDependencies, the cached documents and the documents asked for, oldest first. *)
Record pst := Pst { p_missing : list module; p_cache : gmap str (option doc); p_asked : list module }.

Section Pkg.
Context (server : str -> str -> option doc) (local : list module) (arch : str) (skip : bool).

(** The document behind the URL of 1052. *)
Definition fetch (m : module) : option doc := server (fst m) (print_version (snd m)).
Definition installed (n : str) : bool := existsb (fun m => str_eqb (fst m) n) local.
Definition dep_module (d : dep) : module := (d_name d, ver (d_min d)).

(** The loop over the dependencies, 1075-1096. *)
Fixpoint prepare_deps (rec : module -> pst -> res pst) (ds : list dep) (s : pst) : res pst :=
  match ds with
  | [] => Ok s
  | d :: r =>
      if installed (d_name d) then prepare_deps rec r s
      else
        let! s1 := rec (dep_module d) (Pst (add_module (dep_module d) (p_missing s)) (p_cache s) (p_asked s)) in
        prepare_deps rec r s1
  end.
(** prepareModuleInstallation, 1038-1097. An empty document gives a module without
    dependencies (collectModuleData 499-517). *)
Fixpoint prepare (n : nat) (m : module) (s : pst) : res pst :=
  match n with
  | O => Fuel
  | S n =>
      let s1 := Pst (p_missing s) (<[fst m := fetch m]> (p_cache s)) (p_asked s ++ [m]) in
      if skip then Ok s1
      else match fetch m with
           | None => Ok s1
           | Some j =>
               if negb (bool_decide (j_arch j = [])) && negb (str_eqb (j_arch j) arch) then Throw "exit"
               else prepare_deps (prepare n) (set_of d_name (j_deps j)) s1
           end
  end.

(** ** Installing *)
(** The module a parameter of install asks for, 794-812; [true] if it names a version. *)
Definition requested (remote : list module) (p : str) : module * bool :=
  let '(n, v) := split_by p (chr 58) in
  if bool_decide (v = []) then
    match get_module n remote with
    | Some m => ((n, ver (print_version (snd m))), false)
    | None => ((n, ver []), false)
    end
  else ((n, ver v), true).

Fixpoint prepare_all (n : nat) (ms : list module) (s : pst) : res pst :=
  match ms with [] => Ok s | m :: r => let! s1 := prepare n m s in prepare_all n r s1 end.

(** installModule, 863-917: what is unpacked, a name and a version text. *)
Definition install_module (s : pst) (n : str) : list (str * str) :=
  match p_cache s !! n with
  | Some (Some j) => if j_target j then [(n, j_version j)] else []
  | _ => []
  end.
(** install, 770-861: the state and what is unpacked, in order. *)
Definition install (n : nat) (rs : list restriction) (remote : list module) (force : bool) (params : list str) (s : pst)
  : res (pst * list (str * str)) :=
  match params with
  | [] => Ok (s, [])
  | _ =>
      let reqs := map (requested remote) params in
      let force' := force || existsb snd reqs in
      let! s1 := prepare_all n (map fst reqs) s in
      let allow := forallb (check_restrictions rs) (map fst reqs) in
      let missing := fold_left (fun acc m => add_module m acc) (map fst reqs) (p_missing s1) in
      let s2 := Pst missing (p_cache s1) (p_asked s1) in
      Ok (s2,
          if allow then
            flat_map (fun m =>
              match get_module (fst m) local with
              | Some t => if negb force' && negb (version_ltb (snd t) (snd m)) then [] else install_module s2 (fst m)
              | None => install_module s2 (fst m)
              end) missing
          else [])
  end.
End Pkg.
Definition fresh : pst := Pst [] ∅ [].
