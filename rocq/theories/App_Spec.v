(** Specification of the application server, independent of the code: what a request says, which service it is for, and what
    the program of a service may see. *)
From Verif Require Import Base Text_Model.

(** ** Requests *)
(** A request says names and values. *)
Definition said := list (str * str).
Inductive says : said -> str -> str -> Prop :=
| says_first n v l : says ((n, v) :: l) n v
| says_later n v m w l : m <> n -> says l n v -> says ((m, w) :: l) n v.
Definition silent_on (l : said) (n : str) : Prop := n ∉ map fst l.
(** On the wire, a name and its value are written with an equals sign in between. *)
Definition plain_name (n : str) : Prop := chr 61 ∉ n.
Definition wire (l : said) : list str := map (fun p => fst p ++ chr 61 :: snd p) l.
Definition well_formed (l : said) : Prop := Forall (fun p => plain_name (fst p)) l.

(** ** What a program sees *)
(** The variables that are handed over *)
Definition handed_over : list str :=
  [$"HTTP_ACCEPT"; $"HTTP_COOKIE"; $"HTTP_FORWARDED"; $"HTTP_HOST"; $"HTTP_PROXY_CONNECTION"; $"HTTP_REFERER"; $"HTTP_USER_AGENT";
   $"REQUEST_SCHEME"; $"REQUEST_METHOD"; $"REQUEST_URI"; $"DOCUMENT_URI"; $"REQUEST_FILENAME"; $"SCRIPT_FILENAME"; $"LAST_MODIFIED";
   $"SCRIPT_USER"; $"SCRIPT_GROUP"; $"PATH_INFO"; $"QUERY_STRING"; $"IS_SUBREQ"; $"THE_REQUEST"; $"REMOTE_ADDR"; $"REMOTE_PORT";
   $"REMOTE_HOST"; $"REMOTE_USER"; $"REMOTE_IDENT"; $"SERVER_NAME"; $"SERVER_PORT"; $"SERVER_ADMIN"; $"SERVER_PROTOCOL";
   $"DOCUMENT_ROOT"; $"AUTH_TYPE"; $"CONTENT_TYPE"; $"HANDLER"; $"HTTP2"; $"HTTPS"; $"IPV6"; $"REQUEST_STATUS"; $"REQUEST_LOG_ID";
   $"CONN_LOG_ID"; $"CONN_REMOTE_ADDR"; $"CONTEXT_PREFIX"; $"CONTEXT_DOCUMENT_ROOT"].
(** A variable of the program: what the request says; if it says nothing, what the server has; an empty text if neither does.
    Other variables are those of the server. *)
Inductive sees (own : str -> option str) (l : said) : str -> option str -> Prop :=
| sees_request n v : n ∈ handed_over -> says l n v -> sees own l n (Some v)
| sees_own n v : n ∈ handed_over -> silent_on l n -> own n = Some v -> sees own l n (Some v)
| sees_empty n : n ∈ handed_over -> silent_on l n -> own n = None -> sees own l n (Some [])
| sees_other n : n ∉ handed_over -> sees own l n (own n).

(** ** Services *)
(** The requests that can be answered: those that say where they go, how, and with what question. *)
Definition complete (l : said) : Prop := forall n, n ∈ [$"PATH_INFO"; $"REQUEST_METHOD"; $"REQUEST_URI"; $"QUERY_STRING"] -> exists v, says l n v.
(** The entry point for a path: that of the service with this path, that of the default service for no path *)
Inductive served_by (services : list (str * str)) (default : option str) : str -> str -> Prop :=
| served_service path entry : path <> [] -> (path, entry) ∈ services -> served_by services default path entry
| served_default entry : default = Some entry -> served_by services default [] entry.
Definition unserved (services : list (str * str)) (default : option str) (path : str) : Prop :=
  forall entry, ~ served_by services default path entry.

(** What the client is told if there is no service for its path *)
Definition says_404 : str :=
  $"Status: 404 Not Found" ++ [chr 13; chr 10] ++ $"Content-Type: text/plain" ++ [chr 13; chr 10] ++ [chr 13; chr 10] ++
  $"404 - Endpoint not found" ++ [chr 10].

(** ** The command line of the server *)
Definition app_switches : list str := [$"--debug"; $"-v"; $"--verbose"].
Definition app_stops : list str := [$"-h"; $"--help"; $"--version"].
(** [app_options l ds d v]: options for the library folders [ds], with debugging if [d] and verbose if [v] *)
Inductive app_options : list str -> list str -> bool -> bool -> Prop :=
| app_none : app_options [] [] false false
| app_debug l ds d v : app_options l ds d v -> app_options ($"--debug" :: l) ds true v
| app_verbose s l ds d v : s ∈ [$"-v"; $"--verbose"] -> app_options l ds d v -> app_options (s :: l) ds d true
| app_library w x l ds d v : w ∈ [$"-l"; $"--library"] -> app_options l ds d v -> app_options (w :: x :: l) (x :: ds) d v.
Inductive app_named : list str -> str -> Prop :=
| app_by_option w f : w ∈ [$"-f"; $"--file"] -> app_named [w; f] f
| app_alone f : f ∉ app_switches -> f ∉ app_stops -> f ∉ [$"-l"; $"--library"; $"-f"; $"--file"] -> app_named [f] f.
