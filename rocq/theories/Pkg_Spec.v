(** What the package manager has to do, said without the model's loops. *)
From stdpp Require Import relations.
From Verif Require Import Base Text_Model SemVer_Model Pkg_Model.

(** A document lists [d] as the dependency on its module (the first entry counts when a
    document names a module twice). *)
Definition lists (ds : list dep) (d : dep) : Prop :=
  exists before after, ds = before ++ d :: after /\ Forall (fun e => d_name e <> d_name d) before.

(** [m] needs [m']: the server's document for [m] lists a dependency on [m'], which is not
    installed; the wanted version is the minimum the document gives. *)
Inductive needs (server : str -> str -> option doc) (local : list module) : module -> module -> Prop :=
| needs_intro m j d :
    server (fst m) (print_version (snd m)) = Some j ->
    lists (j_deps j) d ->
    d_name d ∉ map fst local ->
    needs server local m (d_name d, fst (parse_version (d_min d))).

(** A version lies between the limits of a restriction; an empty or all-zero limit is none. *)
Definition limit (s : str) : option version := let '(v, ok) := parse_version s in if ok then Some v else None.
Definition within (r : restriction) (v : version) : Prop :=
  (forall lo, limit (r_min r) = Some lo -> version_ltb v lo = false) /\
  (forall hi, limit (r_max r) = Some hi -> version_ltb hi v = false).

(** What a command line argument of install asks for: name:version, or the version the
    repository index has. *)
Inductive asks (remote : list module) : str -> module -> Prop :=
| asks_version n v : chr 58 ∉ n -> v <> [] -> asks remote (n ++ chr 58 :: v) (n, fst (parse_version v))
| asks_latest n v : chr 58 ∉ n -> (n, v) ∈ remote -> fst (parse_version (print_version v)) = v ->
    (forall m, m ∈ remote -> fst m = n -> m = (n, v)) -> asks remote n (n, v).

(** The same server with other maximum versions in its documents. *)
Definition other_max (f : dep -> str) (server : str -> str -> option doc) (n v : str) : option doc :=
  option_map (fun j => Doc (j_arch j) (map (fun d => Dep (d_name d) (d_min d) (f d)) (j_deps j)) (j_version j) (j_target j)) (server n v).
