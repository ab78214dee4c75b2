(** Model of the command line: from the arguments of the interpreter to what a script sees of them.
    Code: /repo/Projects/slang/main.cpp and /repo/Projects/Library/libParam/ParameterHandler.os (a Slang program, followed
    statement by statement), with CharacterIterator.os and the extension methods of SysStr_Model.

    What is simplified: the list of parameters is a list (the library List is Coll_Model, C49), the set of library folders is
    the list of the given ones, and the loudness of the logger is a number. *)
From Verif Require Import Base Text_Model Value_Model SysStr_Model.

(** ** slang/main.cpp *)
(** The global variables, 46-58 *)
Record setup := Setup {
  g_file : str; g_libs : list str; g_loud : Z; g_debug : bool; g_spec : option str; g_tokens : bool; g_usage : bool;
  g_version : bool; g_sanity : bool; g_syntax : bool }.
Definition setup0 : setup := Setup [] [] 0 false None false false false true false.
Definition set_file (f : str) (g : setup) := Setup f (g_libs g) (g_loud g) (g_debug g) (g_spec g) (g_tokens g) (g_usage g) (g_version g) (g_sanity g) (g_syntax g).
Definition add_lib (l : str) (g : setup) := Setup (g_file g) (g_libs g ++ [l]) (g_loud g) (g_debug g) (g_spec g) (g_tokens g) (g_usage g) (g_version g) (g_sanity g) (g_syntax g).
Definition set_loud (z : Z) (g : setup) := Setup (g_file g) (g_libs g) z (g_debug g) (g_spec g) (g_tokens g) (g_usage g) (g_version g) (g_sanity g) (g_syntax g).
Definition set_debug (g : setup) := Setup (g_file g) (g_libs g) (g_loud g) true (g_spec g) (g_tokens g) (g_usage g) (g_version g) (g_sanity g) (g_syntax g).
Definition set_spec (q : str) (g : setup) := Setup (g_file g) (g_libs g) (g_loud g) (g_debug g) (Some q) (g_tokens g) (g_usage g) (g_version g) (g_sanity g) (g_syntax g).
Definition set_tokens (g : setup) := Setup (g_file g) (g_libs g) (g_loud g) (g_debug g) (g_spec g) true (g_usage g) (g_version g) (g_sanity g) (g_syntax g).
Definition set_usage (g : setup) := Setup (g_file g) (g_libs g) (g_loud g) (g_debug g) (g_spec g) (g_tokens g) true (g_version g) (g_sanity g) (g_syntax g).
Definition set_version (g : setup) := Setup (g_file g) (g_libs g) (g_loud g) (g_debug g) (g_spec g) (g_tokens g) (g_usage g) true (g_sanity g) (g_syntax g).
Definition clear_sanity (g : setup) := Setup (g_file g) (g_libs g) (g_loud g) (g_debug g) (g_spec g) (g_tokens g) (g_usage g) (g_version g) false (g_syntax g).
Definition set_syntax (g : setup) := Setup (g_file g) (g_libs g) (g_loud g) (g_debug g) (g_spec g) (g_tokens g) (g_usage g) (g_version g) (g_sanity g) true.

Definition is_arg (a : str) (l : list str) : bool := existsb (str_eqb a) l.

(** processParameters, 163-168, once the name of the script is known *)
Fixpoint script_args (l : list str) (params : list str) (text : str) : list str * str :=
  match l with
  | [] => (params, text)
  | a :: l => script_args l (params ++ [a]) (text ++ [chr 10] ++ a)
  end.
(** processParameters, 94-162: the settings, the list [params] and the text [paramStr]. [l] is argv from index [i] on. *)
Fixpoint process_parameters (l : list str) (g : setup) : res (setup * (list str * str)) :=
  match l with
  | [] => Ok (g, ([], []))
  | a :: l =>
      if str_eqb a ($"--debug") then process_parameters l (set_debug g)
      else if is_arg a [$"-f"; $"--file"] then
        match l with [] => Throw "exit" | f :: l => Ok (set_file f g, script_args l [f] f) end
      else if is_arg a [$"-h"; $"--help"] then process_parameters l (set_usage g)
      else if is_arg a [$"-l"; $"--library"] then
        match l with [] => Throw "exit" | d :: l => process_parameters l (add_lib d g) end
      else if is_arg a [$"-q"; $"--quiet"] then process_parameters l (set_loud 1 g)
      else if str_eqb a ($"--skip-sanitycheck") then process_parameters l (clear_sanity g)
      else if str_eqb a ($"--spec") then
        match l with
        | [] => Ok (set_spec (match g_spec g with Some q => q | None => [] end) g, ([], []))
        | q :: l => process_parameters l (set_spec q g)
        end
      else if str_eqb a ($"--syntax") then process_parameters l (set_syntax g)
      else if str_eqb a ($"--tokens") then process_parameters l (set_tokens g)
      else if is_arg a [$"-v"; $"--verbose"] then process_parameters l (set_loud 2 g)
      else if str_eqb a ($"--version") then process_parameters l (set_version g)
      else match g_file g with
           | [] => Ok (set_file a g, script_args l [a] a)
           | _ => process_parameters l g
           end
  end.

(** What main does, 175-273: [argc] and [args] are the parameters of the method Main of the script. *)
Inductive action := ShowDebug | ShowSpec (q : str) | ShowVersion | ShowUsage | ShowTokens (f : str) | CheckSyntax (f : str)
                  | RunScript (f : str) (argc : Z) (args : str).
Definition interpreter (argv : list str) : res action :=
  let! r := process_parameters argv setup0 in
  let g := fst r in
  Ok (if g_debug g then ShowDebug
      else match g_spec g with
           | Some q => ShowSpec q
           | None =>
               if g_version g then ShowVersion
               else if g_usage g || bool_decide (g_file g = []) then ShowUsage
               else if g_tokens g then ShowTokens (g_file g)
               else if g_syntax g then CheckSyntax (g_file g)
               else RunScript (g_file g) (wrap 32 (Z.of_nat (length (fst (snd r))))) (snd (snd r))
           end).

(** ** ParameterHandler.os *)
(** The object Parameter, 8-29: Key and Value. *)
Definition parameter := (str * str)%type.
(** insertParameter, 176-187 *)
Definition make_parameter (key value : str) : res parameter :=
  let! a := substr3 key 0 1 in
  if str_eqb a ($"-") then
    let! b := substr3 key 0 2 in
    let! k := substr2 key (if str_eqb b ($"--") then 2 else 1) in Ok (k, value)
  else let! k := substr2 key 0 in Ok (k, value).

(** The local variables of process, 193-197 *)
Record scan := Scan { x_escape : bool; x_string : bool; x_value : bool; x_key : str; x_param : str }.
Definition scan0 : scan := Scan false false false [] [].
Definition the_parameter (x : scan) : res parameter :=
  make_parameter (if x_value x then x_key x else x_param x) (if x_value x then x_param x else []).
(** The round of the loop for the text [c] of the iterator, 205-239. *)
Definition scan_step (x : scan) (c : str) : res (scan * list parameter) :=
  if negb (x_escape x) && str_eqb c [chr 34] then Ok (Scan (x_escape x) (negb (x_string x)) (x_value x) (x_key x) (x_param x), [])
  else if negb (x_escape x) && str_eqb c [chr 92] then Ok (Scan (negb (x_escape x)) (x_string x) (x_value x) (x_key x) (x_param x), [])
  else if negb (x_string x) && (str_eqb c ($" ") || str_eqb c [chr 10]) then
    let! l := if string_to_bool (x_param x) || x_value x then let! p := the_parameter x in Ok [p] else Ok [] in
    Ok (Scan false false false [] [], l)
  else if negb (x_string x) && str_eqb c ($"=") then Ok (Scan (x_escape x) (x_string x) true (x_param x) [], [])
  else Ok (Scan false (x_string x) (x_value x) (x_key x) (x_param x ++ c), []).
Fixpoint scan_all (x : scan) (cs : list str) : res (scan * list parameter) :=
  match cs with
  | [] => Ok (x, [])
  | c :: cs => let! r := scan_step x c in let! q := scan_all (fst r) cs in Ok (fst q, snd r ++ snd q)
  end.
(** process, 192-243. The iterator does not depend on the loop, so that its texts are read before it. *)
Definition read_args (args : str) : res (list parameter) :=
  let! cs := characters (length args + 2) args in
  let! r := scan_all scan0 cs in
  let! p := the_parameter (fst r) in
  Ok (snd r ++ [p]).

(** mProgramName, mDirectoryName and mParameters *)
Record handler := Handler { h_program : str; h_directory : str; h_params : list parameter }.
(** 52-57 *)
Fixpoint directory_loop (fuel : nat) (name : str) (length : Z) : res Z :=
  match fuel with
  | O => Fuel
  | S fuel =>
      if (0 <? length)%Z then
        let! c := substr3 name (length - 1) 1 in
        if negb (str_eqb c ($"/")) then directory_loop fuel name (length - 1) else Ok length
      else Ok length
  end.
(** Constructor, 40-63 *)
Definition new_handler (argc : Z) (args : str) (skip : bool) : res handler :=
  let! l := read_args args in
  match l with
  | [] => if (argc =? 0)%Z then Ok (Handler [] [] []) else Throw "AssertionFailed"
  | p :: l =>
      let! d := if skip then Ok []
                else let! n := directory_loop (S (length (fst p))) (fst p) (str_len (fst p)) in substr3 (fst p) 0 n in
      if (argc - 1 =? Z.of_nat (length l))%Z then Ok (Handler (fst p) d l) else Throw "AssertionFailed"
  end.

(** operator[]( string ), 75-83 *)
Fixpoint find_param (l : list parameter) (key : str) : option parameter :=
  match l with [] => None | p :: l => if str_eqb (fst p) key then Some p else find_param l key end.
Definition get_param (h : handler) (key : str) : res parameter :=
  match find_param (h_params h) key with Some p => Ok p | None => Throw "Exception" end.
(** operator[]( int ), 68-70, with at of List.os *)
Definition param_at (h : handler) (i : Z) : res parameter :=
  if (i <? 0)%Z || (Z.of_nat (length (h_params h)) <=? i)%Z then Throw "OutOfBoundsException"
  else match nth_error (h_params h) (Z.to_nat i) with Some p => Ok p | None => UB end.
(** contains, 88-96 *)
Definition contains_param (h : handler) (key : str) : bool := match find_param (h_params h) key with Some _ => true | None => false end.
(** remove( string ), 129-142 *)
Fixpoint drop_param (l : list parameter) (key : str) : bool * list parameter :=
  match l with
  | [] => (false, [])
  | p :: l => if str_eqb (fst p) key then (true, l) else let r := drop_param l key in (fst r, p :: snd r)
  end.
Definition remove_param (h : handler) (key : str) : bool * handler :=
  let r := drop_param (h_params h) key in (fst r, Handler (h_program h) (h_directory h) (snd r)).
