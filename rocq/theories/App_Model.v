(** Model of the application server: which service answers a request, and what its program sees of the request.
    Code: /repo/Projects/slang-app (Application/Application.cpp, Common/Service.cpp).

    What is simplified: the program of a service is a parameter of the model ([program]: from the name of the entry point, the
    environment, the memory of the script and the files to what it prints and how it ends); its own semantics are the other
    parts of the model. The parameters of a request are the texts NAME=VALUE that the FastCGI library keeps, and
    FCGX_GetParam is modelled as that library documents it. The services of services.json are the members of its object, as
    the JSON library lists them. Memory is copied by fork and files are shared. Undefined behaviour of the child process (a
    null pointer as a text) ends the child: [Died]. Logging and the copy of the answer on the standard output are left out, and
    answers are shorter than 2^31 characters (Service.cpp:58). *)
From Verif Require Import Base Text_Model Args_Model.

(** ** Environments *)
(** The environment of a process: getenv *)
Definition env := str -> option str.
Definition env_set (k v : str) (e : env) : env := fun x => if str_eqb x k then Some v else e x.
(** setenv(3) *)
Definition set_env (k v : str) (overwrite : bool) (e : env) : env :=
  match e k with
  | Some _ => if overwrite then env_set k v e else e
  | None => env_set k v e
  end.

(** Parameters of a request: texts NAME=VALUE *)
Definition request := list str.
(** The rest of [s] behind [n] *)
Fixpoint behind (n s : str) : option str :=
  match n, s with
  | [], _ => Some s
  | a :: n, b :: s => if ascii_dec a b then behind n s else None
  | _ :: _, [] => None
  end.
(** FCGX_GetParam of the FastCGI library: the first text that begins with the name and an equals sign *)
Fixpoint get_parameter (n : str) (q : request) : option str :=
  match q with
  | [] => None
  | p :: q => match behind (n ++ [chr 61]) p with Some v => Some v | None => get_parameter n q end
  end.

(** ** Common/Service.cpp *)
(** setenv_s, 138-143 *)
Definition setenv_s (n : str) (q : request) (e : env) : env :=
  match get_parameter n q with
  | Some v => set_env n v true e
  | None => set_env n [] false e
  end.
(** The calls of prepareEnvironment, 81-123, in their order; true for those that use setenv with the pointer as it is *)
Definition variables : list (str * bool) :=
  [($"HTTP_ACCEPT", false); ($"HTTP_COOKIE", false); ($"HTTP_FORWARDED", false); ($"HTTP_HOST", false);
   ($"HTTP_PROXY_CONNECTION", false); ($"HTTP_REFERER", false); ($"HTTP_USER_AGENT", false); ($"REQUEST_SCHEME", false);
   ($"REQUEST_METHOD", true); ($"REQUEST_URI", true); ($"DOCUMENT_URI", false); ($"REQUEST_FILENAME", false);
   ($"SCRIPT_FILENAME", false); ($"LAST_MODIFIED", false); ($"SCRIPT_USER", false); ($"SCRIPT_GROUP", false);
   ($"PATH_INFO", false); ($"QUERY_STRING", true); ($"IS_SUBREQ", false); ($"THE_REQUEST", false); ($"REMOTE_ADDR", false);
   ($"REMOTE_PORT", false); ($"REMOTE_HOST", false); ($"REMOTE_USER", false); ($"REMOTE_IDENT", false); ($"SERVER_NAME", false);
   ($"SERVER_PORT", false); ($"SERVER_ADMIN", false); ($"SERVER_PROTOCOL", false); ($"DOCUMENT_ROOT", false);
   ($"AUTH_TYPE", false); ($"CONTENT_TYPE", false); ($"HANDLER", false); ($"HTTP2", false); ($"HTTPS", false); ($"IPV6", false);
   ($"REQUEST_STATUS", false); ($"REQUEST_LOG_ID", false); ($"CONN_LOG_ID", false); ($"CONN_REMOTE_ADDR", false);
   ($"CONTEXT_PREFIX", false); ($"CONTEXT_DOCUMENT_ROOT", false)].
(** prepareEnvironment, 73-131 *)
Fixpoint prepare (l : list (str * bool)) (q : request) (e : env) : res env :=
  match l with
  | [] => Ok e
  | (n, false) :: l => prepare l q (setenv_s n q e)
  | (n, true) :: l =>
      match get_parameter n q with
      | Some v => prepare l q (set_env n v true e)
      | None => UB
      end
  end.

(** How the program of a service ends: regularly, with an exception that leaves it, or with the end of its process *)
Inductive ending := Finished | Raised | Crashed.

Section server.
  Context {Mem Disk : Type}.
  (** Script::execute with the name of the entry point *)
  Variable program : str -> env -> Mem -> Disk -> str * ending * (env * Mem) * Disk.

  (** A process of the server: its environment and the memory of the script (static variables, global variables) *)
  Record process := Process { p_env : env; p_mem : Mem }.
  (** What the client gets: a text, or a connection that ends without one *)
  Inductive reply := Text (t : str) | Died | Dropped.

  (** handleRequest, 35-63: what is printed is collected, also if an exception ends the program *)
  Definition handle_request (entry : str) (q : request) (p : process) (d : Disk) : reply * process * Disk :=
    match prepare variables q (p_env p) with
    | Ok e =>
        match program entry e (p_mem p) d with
        | (out, Crashed, (e, m), d) => (Died, Process e m, d)
        | (out, _, (e, m), d) => (Text out, Process e m, d)
        end
    | _ => (Died, p, d)
    end.

  (** ** Application/Application.cpp *)
  (** The settings that answering uses: Services in their order, DefaultService *)
  Record settings := Settings { s_services : list (str * str); s_default : option str }.
  (** handle_not_found, 307-312 *)
  Definition not_found : str :=
    $"Status: 404 Not Found" ++ [chr 13; chr 10] ++ $"Content-Type: text/plain" ++ [chr 13; chr 10; chr 13; chr 10] ++
    $"404 - Endpoint not found" ++ [chr 10].
  (** exec, 88-93: the service with a path *)
  Fixpoint find_service (l : list (str * str)) (path : str) : option str :=
    match l with
    | [] => None
    | (n, entry) :: l => if str_eqb n path then Some entry else find_service l path
    end.
  (** exec, 75-102: the child process *)
  Definition child (c : settings) (q : request) (p : process) (d : Disk) : reply * process * Disk :=
    match get_parameter ($"PATH_INFO") q with
    | None => (Died, p, d)
    | Some path =>
        let service := match path with [] => s_default c | _ => find_service (s_services c) path end in
        match service with
        | Some entry => handle_request entry q p d
        | None => (Text not_found, p, d)
        end
    end.
  (** exec, 66-109: [true] if fork made a child. The parent goes on with its own memory and environment. *)
  Fixpoint exec (c : settings) (l : list (request * bool)) (p : process) (d : Disk) : list reply * process * Disk :=
    match l with
    | [] => ([], p, d)
    | (q, true) :: l =>
        let '(r, _, d) := child c q p d in
        let '(rs, p, d) := exec c l p d in (r :: rs, p, d)
    | (q, false) :: l =>
        let '(rs, p, d) := exec c l p d in (Dropped :: rs, p, d)
    end.
End server.
Arguments process Mem : clear implicits.

(** ** The command line of the server *)
(** The fields of Settings and the variables of the file, 42-44 *)
Record options_set := OptionsSet { o_script : str; o_libs : list str; o_debug : bool; o_verbose : bool }.
Inductive start := Start (o : options_set) (argc : Z) (params : str) | ShowUsage | ShowVersion | Refused.
(** processParameters, 235-301. [l] is argv from index [i] on. *)
Fixpoint app_parameters (l : list str) (o : options_set) : start :=
  match l with
  | [] => Start o 0 []
  | a :: l =>
      if str_eqb a ($"--debug") then app_parameters l (OptionsSet (o_script o) (o_libs o) true (o_verbose o))
      else if is_arg a [$"-f"; $"--file"] then
        match l with
        | [] => Refused
        | f :: l => let '(ps, t) := script_args l [f] f in
            Start (OptionsSet f (o_libs o) (o_debug o) (o_verbose o)) (Z.of_nat (length ps)) t
        end
      else if is_arg a [$"-h"; $"--help"] then ShowUsage
      else if is_arg a [$"-l"; $"--library"] then
        match l with
        | [] => Refused
        | d :: l => app_parameters l (OptionsSet (o_script o) (o_libs o ++ [d]) (o_debug o) (o_verbose o))
        end
      else if is_arg a [$"-v"; $"--verbose"] then app_parameters l (OptionsSet (o_script o) (o_libs o) (o_debug o) true)
      else if str_eqb a ($"--version") then ShowVersion
      else match o_script o with
           | [] => let '(ps, t) := script_args l [a] a in
               Start (OptionsSet a (o_libs o) (o_debug o) (o_verbose o)) (Z.of_nat (length ps)) t
           | _ => app_parameters l o
           end
  end.
