(** The language of declarations: which tokens declare what. Written as a grammar, independent of the reader. Positions and
    categories of tokens do not matter. *)
From Verif Require Import Base Text_Model TypeTable Tok_Model Parse_Spec Enum_Spec Decl_Model.
From Coq Require Import Sorting.Sorted.

(** A token of a type with a text. *)
Definition sym (ty : ttype) (s : str) (t : token) : Prop := k_type t = ty /\ k_text t = s.
(** A name. *)
Definition ident (t : token) : Prop :=
  k_type t = IDENTIFIER /\ k_text t <> [] /\ k_text t ∉ [$"extends"; $"implements"; $"replicates"].
(** An optional word of a kind, with the meaning of each word; the meaning of its absence is [d]. *)
Inductive opt_word {A} (ty : ttype) (meaning : list (str * A)) (d : A) : list token -> A -> Prop :=
| word_absent : opt_word ty meaning d [] d
| word_given t v : k_type t = ty -> (k_text t, v) ∈ meaning -> opt_word ty meaning d [t] v.
Definition visibilities : list (str * visibility) := [($"private", Private); ($"protected", Protected); ($"public", Public)].
Definition features : list (str * feature) :=
  [($"deprecated", Deprecated); ($"notimplemented", NotImplemented); ($"stable", Stable); ($"unstable", Unstable)].
Definition layouts : list (str * layout) :=
  [($"abstract", Abstract); ($"final", Final); ($"override", Override); ($"static", Static); ($"virtual", Virtual)].
Definition mutabilities : list (str * mutability) := [($"const", Const); ($"modify", Modify)].
Definition accesses : list (str * access) := [($"ref", ByReference); ($"val", AUnspecified)].

(** Names with points between them. *)
Inductive path : list token -> list str -> Prop :=
| path_one t : ident t -> path [t] [k_text t]
| path_more t d ts ns : ident t -> sym OPERATOR_SCOPE ($".") d -> path ts ns -> path (t :: d :: ts) (k_text t :: ns).
Fixpoint dotted (ns : list str) : str :=
  match ns with [] => [] | [n] => n | n :: ns' => n ++ $"." ++ dotted ns' end.

(** Type parameters: [<A, B : C>]. *)
Inductive one_arg : list token -> str * str -> Prop :=
| arg_plain t : ident t -> one_arg [t] (k_text t, [])
| arg_bound t c k : ident t -> sym COLON ($":") c -> ident k -> one_arg [t; c; k] (k_text t, k_text k).
Inductive some_args : list token -> list (str * str) -> Prop :=
| args_one a x : one_arg a x -> some_args a [x]
| args_more a x c b xs : one_arg a x -> sym COMMA ($",") c -> some_args b xs -> some_args (a ++ c :: b) (x :: xs).
Inductive type_args : list token -> list (str * str) -> Prop :=
| args_absent : type_args [] []
| args_given l a g xs : sym COMPARE_LESS ($"<") l -> sym COMPARE_GREATER ($">") g -> some_args a xs -> type_args (l :: a ++ [g]) xs.
(** A type: [A.B<C> const]. *)
Inductive type_of : list token -> tdecl -> Prop :=
| type_written p ns a xs m v : path p ns -> type_args a xs -> opt_word MUTABILITY mutabilities Modify m v ->
    type_of (p ++ a ++ m) (TDecl (dotted ns) xs v).

(** The value of a type: [true], [12], [-3], ["text"], [null]. *)
Inductive value_of (ty : str) : list token -> dval -> Prop :=
| value_bool t b : ty = t_bool -> sym CONST_BOOLEAN (if b : bool then $"true" else $"false") t -> value_of ty [t] (DBool b)
| value_int t n : (ty = t_int16 /\ n <= 32767 \/ (ty = t_int \/ ty = t_int64) /\ n <= 9223372036854775807)%Z -> (0 <= n)%Z ->
    sym CONST_INTEGER (print_int n) t -> value_of ty [t] (DInt n)
| value_negative m t n : (ty = t_int16 /\ n <= 32768 \/ (ty = t_int \/ ty = t_int64) /\ n <= 9223372036854775808)%Z -> (0 < n)%Z ->
    sym MATH_SUBTRACT ($"-") m -> sym CONST_INTEGER (print_int n) t -> value_of ty [m; t] (DInt (- n))
| value_double t : ty = t_double -> k_type t = CONST_DOUBLE -> value_of ty [t] (DDouble (k_text t))
| value_minus_double m t : ty = t_double -> sym MATH_SUBTRACT ($"-") m -> k_type t = CONST_DOUBLE ->
    value_of ty [m; t] (DDouble ($"-" ++ k_text t))
| value_float t : ty = t_float -> k_type t = CONST_FLOAT -> value_of ty [t] (DFloat (k_text t))
| value_minus_float m t : ty = t_float -> sym MATH_SUBTRACT ($"-") m -> k_type t = CONST_FLOAT ->
    value_of ty [m; t] (DFloat ($"-" ++ k_text t))
| value_text t : ty = t_string -> k_type t = CONST_LITERAL -> value_of ty [t] (DText (k_text t))
| value_null t : ty ∉ [t_bool; t_double; t_float; t_int16; t_int; t_int64; t_string; t_void] ->
    sym IDENTIFIER ($"null") t -> value_of ty [t] DNull.

(** A parameter: type, name, words, default value; without a name there is nothing but the access mode. *)
Inductive default_of (ty : str) : list token -> option dval -> Prop :=
| default_absent : default_of ty [] None
| default_given e v x : sym ASSIGN ($"=") e -> value_of ty v x -> default_of ty (e :: v) (Some x).
Inductive param_of : list token -> param -> Prop :=
| param_named tt td n m mv a av d dv :
    type_of tt td -> ident n -> opt_word MUTABILITY mutabilities Modify m mv -> opt_word ACCESS_MODE accesses AUnspecified a av ->
    default_of (td_name td) d dv -> (dv <> None -> av <> ByReference) ->
    param_of (tt ++ n :: m ++ a ++ d) (Param (k_text n) td mv av dv)
| param_unnamed tt td a av :
    type_of tt td -> opt_word ACCESS_MODE accesses AUnspecified a av -> param_of (tt ++ a) (Param [] td Modify av None).
Inductive some_params : list token -> list param -> Prop :=
| params_one a p : param_of a p -> some_params a [p]
| params_more a p c b ps : param_of a p -> sym COMMA ($",") c -> some_params b ps -> some_params (a ++ c :: b) (p :: ps).
Inductive params_of : list token -> list param -> Prop :=
| params_absent : params_of [] []
| params_given a ps : some_params a ps -> params_of a ps.

(** Ancestors: groups of a word and names. *)
Inductive names_of (k : relation) : list token -> list ancestor -> Prop :=
| names_one p ns a xs : path p ns -> type_args a xs -> names_of k (p ++ a) [Ancestor k (dotted ns) xs]
| names_more p ns a xs c b l : path p ns -> type_args a xs -> sym COMMA ($",") c -> names_of k b l ->
    names_of k (p ++ a ++ c :: b) (Ancestor k (dotted ns) xs :: l).
Definition relations : list (str * relation) := [($"extends", Extends); ($"implements", Implements)].
Inductive groups_of : list token -> list ancestor -> Prop :=
| groups_absent : groups_of [] []
| groups_more w k a l b l' : k_type w = RESERVED_WORD -> (k_text w, k) ∈ relations -> names_of k a l -> groups_of b l' ->
    groups_of (w :: a ++ b) (l ++ l').

(** Where a declaration stands: in a namespace, in an object or in an interface, the last two possibly const. *)
Inductive ctx := InSpace | InObject (const : bool) | InInterface (const : bool).
Definition ctx_const (c : ctx) : bool := match c with InSpace => false | InObject b | InInterface b => b end.
(** The memory layout: only members of objects choose it. *)
Inductive layout_of : ctx -> list token -> layout -> Prop :=
| layout_space : layout_of InSpace [] Static
| layout_interface b : layout_of (InInterface b) [] Abstract
| layout_object b l v : opt_word MEMORY_LAYOUT layouts Virtual l v -> layout_of (InObject b) l v.
(** Constructors and destructors are no constant methods. *)
Definition structor (c : ctx) (name : str) : bool :=
  match c with InSpace => false | _ => bool_decide (name = $"Constructor") || bool_decide (name = $"Destructor") end.
Inductive throwing_of : list token -> throwing -> Prop :=
| throwing_absent : throwing_of [] Nothrow
| throwing_throws t : sym MODIFIER ($"throws") t -> throwing_of [t] Throws
| throwing_nothrow t : sym IDENTIFIER ($"nothrow") t -> throwing_of [t] Nothrow.
(** The body of a method: none behind a semicolon if it is abstract or not implemented, else well nested curly brackets. *)
Inductive body_of (l : layout) (f : feature) : list token -> option (list token) -> Prop :=
| body_none s : sym SEMICOLON ($";") s -> l = Abstract \/ f = NotImplemented -> body_of l f [s] None
| body_some o b c : sym BRACKET_CURLY_OPEN ($"{") o -> sym BRACKET_CURLY_CLOSE ($"}") c -> l <> Abstract ->
    nested BRACKET_CURLY_OPEN BRACKET_CURLY_CLOSE b -> body_of l f (o :: b ++ [c]) (Some b).

Inductive declares : ctx -> list token -> decl -> Prop :=
(* import A.B; *)
| d_import c w p ns s : sym RESERVED_WORD ($"import") w -> path p ns -> hd_error ns <> Some ($"extension") ->
    sym SEMICOLON ($";") s -> declares c (w :: p ++ [s]) (DImport false (dotted ns))
| d_extension c w e p ns s : sym RESERVED_WORD ($"import") w -> sym IDENTIFIER ($"extension") e -> path p ns ->
    sym SEMICOLON ($";") s -> declares c (w :: e :: p ++ [s]) (DImport true (dotted ns))
(* public stable namespace A.B { ... } *)
| d_namespace v vv f fv w p ns o b ds cl :
    opt_word VISIBILITY visibilities Private v vv -> opt_word LANGUAGE_FEATURE_STATE features Stable f fv ->
    sym RESERVED_WORD ($"namespace") w -> path p ns -> sym BRACKET_CURLY_OPEN ($"{") o -> sym BRACKET_CURLY_CLOSE ($"}") cl ->
    declare InSpace b ds -> declares InSpace (v ++ f ++ w :: p ++ o :: b ++ [cl]) (DNamespace vv fv ns ds)
(* public stable abstract object A<T> const extends B implements C, D { ... } *)
| d_object c v vv f fv l lv w t td g an o b ds cl :
    (forall x, c <> InInterface x) ->
    opt_word VISIBILITY visibilities Private v vv -> opt_word LANGUAGE_FEATURE_STATE features Stable f fv ->
    opt_word MEMORY_LAYOUT layouts Virtual l lv -> lv = Abstract \/ lv = Final \/ lv = Virtual ->
    sym RESERVED_WORD ($"object") w -> type_of t td -> groups_of g an ->
    (td_mut td = Const -> Forall (fun a => an_kind a = Implements) an) ->
    sym BRACKET_CURLY_OPEN ($"{") o -> sym BRACKET_CURLY_CLOSE ($"}") cl ->
    declare (InObject (is_const (td_mut td))) b ds ->
    declares c (v ++ f ++ l ++ w :: t ++ g ++ o :: b ++ [cl]) (DObject vv fv lv td an (Some ds))
(* object A extends B; *)
| d_forward c v vv f fv l lv w t td g an s :
    (forall x, c <> InInterface x) ->
    opt_word VISIBILITY visibilities Private v vv -> opt_word LANGUAGE_FEATURE_STATE features Stable f fv ->
    opt_word MEMORY_LAYOUT layouts Virtual l lv -> lv = Abstract \/ lv = Final \/ lv = Virtual ->
    sym RESERVED_WORD ($"object") w -> type_of t td -> groups_of g an ->
    (td_mut td = Const -> Forall (fun a => an_kind a = Implements) an) ->
    sym SEMICOLON ($";") s ->
    declares c (v ++ f ++ l ++ w :: t ++ g ++ [s]) (DObject vv fv lv td an None)
(* object A replicates B<C>; *)
| d_replica c v vv f fv l lv w t td r n an s :
    (forall x, c <> InInterface x) ->
    opt_word VISIBILITY visibilities Private v vv -> opt_word LANGUAGE_FEATURE_STATE features Stable f fv ->
    opt_word MEMORY_LAYOUT layouts Virtual l lv -> lv = Abstract \/ lv = Final \/ lv = Virtual ->
    sym RESERVED_WORD ($"object") w -> type_of t td -> sym RESERVED_WORD ($"replicates") r -> names_of Replicates n an ->
    sym SEMICOLON ($";") s ->
    declares c (v ++ f ++ l ++ w :: t ++ r :: n ++ [s]) (DObject vv fv lv td an None)
(* public interface A implements B { ... } *)
| d_interface c v vv f fv w t td g an o b ds cl :
    (forall x, c <> InInterface x) ->
    opt_word VISIBILITY visibilities Private v vv -> opt_word LANGUAGE_FEATURE_STATE features Unstable f fv ->
    sym RESERVED_WORD ($"interface") w -> type_of t td -> groups_of g an -> Forall (fun a => an_kind a = Implements) an ->
    sym BRACKET_CURLY_OPEN ($"{") o -> sym BRACKET_CURLY_CLOSE ($"}") cl ->
    declare (InInterface (is_const (td_mut td))) b ds ->
    declares c (v ++ f ++ w :: t ++ g ++ o :: b ++ [cl]) (DInterface vv fv td an ds)
(* public enum A { B, C = 3; } *)
| d_enum c v vv f fv w t td o es e s cl :
    opt_word VISIBILITY visibilities Private v vv -> opt_word LANGUAGE_FEATURE_STATE features Stable f fv -> v = [] \/ f = [] ->
    sym RESERVED_WORD ($"enum") w -> type_of t td -> td_args td = [] ->
    sym BRACKET_CURLY_OPEN ($"{") o -> sym BRACKET_CURLY_CLOSE ($"}") cl -> sym SEMICOLON ($";") s ->
    spells es e -> NoDup (map fst es) -> increasing (-1) (numbers (-1) es) -> countable (-1) es ->
    declares c (v ++ f ++ w :: t ++ o :: e ++ [s; cl]) (DEnum vv fv td (zip (map fst es) (numbers (-1) es)))
(* private static stable A x const ref = 3; *)
| d_member c v vv l lv f fv t td n m mv a av d dv s :
    opt_word VISIBILITY visibilities Private v vv -> layout_of c l lv -> opt_word LANGUAGE_FEATURE_STATE features Stable f fv ->
    type_of t td -> ident n -> opt_word MUTABILITY mutabilities Modify m mv -> opt_word ACCESS_MODE accesses ByValue a av ->
    (ctx_const c = true -> mv = Const) -> default_of (td_name td) d dv -> sym SEMICOLON ($";") s ->
    declares c (v ++ l ++ f ++ t ++ n :: m ++ a ++ d ++ [s])
      (DMember vv lv fv td (k_text n) mv av
        (match dv with Some x => x | None => if bool_decide (td_name td = t_string) then DText [] else DInt 0 end))
(* public abstract void f(int a, string b = "x") modify throws; *)
| d_method c v vv l lv f fv t td n po p ps pc m mv x xv b bv :
    opt_word VISIBILITY visibilities Private v vv -> layout_of c l lv -> opt_word LANGUAGE_FEATURE_STATE features Stable f fv ->
    type_of t td -> ident n -> sym PARENTHESIS_OPEN ($"(") po -> sym PARENTHESIS_CLOSE ($")") pc -> params_of p ps ->
    opt_word MUTABILITY mutabilities (if structor c (k_text n) then Modify else Const) m mv -> throwing_of x xv ->
    (ctx_const c = true -> structor c (k_text n) = false -> mv = Const) -> body_of lv fv b bv ->
    declares c (v ++ l ++ f ++ t ++ n :: po :: p ++ pc :: m ++ x ++ b) (DMethod vv lv fv td (k_text n) ps mv xv bv)
with declare : ctx -> list token -> list decl -> Prop :=
| declare_nil c : declare c [] []
| declare_cons c a d b ds : declares c a d -> declare c b ds -> declare c (a ++ b) (d :: ds).

(** The words that may be missing, as the tokenizer marks them. *)
Definition optional_types : list ttype := [LANGUAGE_FEATURE_STATE; MEMORY_LAYOUT; MODIFIER; MUTABILITY; VISIBILITY].
Definition marked (t : token) : Prop := k_opt t = true <-> k_type t ∈ optional_types.

(** ** What every accepted declaration keeps, whatever the tokens *)
(** A default value is of the type it is given for. *)
Definition fits (ty : str) (v : dval) : Prop :=
  match v with
  | DBool _ => ty = t_bool
  | DDouble _ => ty = t_double
  | DFloat _ => ty = t_float
  | DInt z => (ty = t_int16 /\ (-32768 <= z <= 32767)%Z) \/ ty = t_int \/ ty = t_int64
  | DText _ => ty = t_string
  | DNull => ty ∉ [t_bool; t_double; t_float; t_int16; t_int; t_int64; t_string; t_void]
  end.
Definition sound_param (p : param) : Prop :=
  forall v, pa_default p = Some v -> pa_name p <> [] /\ pa_access p <> ByReference /\ fits (td_name (pa_type p)) v.
(** Nothing but constructors and destructors changes an object of a const type. *)
Definition structor_name (n : str) : Prop := n = $"Constructor" \/ n = $"Destructor".
(** A method without a body; an interface has no others, unless an interface is declared in it. *)
Fixpoint interface_free (d : decl) : bool :=
  match d with
  | DInterface _ _ _ _ _ => false
  | DNamespace _ _ _ ds | DObject _ _ _ _ _ (Some ds) => forallb interface_free ds
  | _ => true
  end.
Definition bodiless (d : decl) : Prop :=
  match d with DMethod _ l _ _ _ _ _ _ b => l = Abstract /\ b = None | DMember _ l _ _ _ _ _ _ => l = Abstract | _ => True end.
Inductive sound : place -> decl -> Prop :=
| sound_import sc e p : sound sc (DImport e p)
| sound_namespace v f p ds : Forall (sound Space) ds -> sound Space (DNamespace v f p ds)
| sound_object sc v f l t an ds : l = Abstract \/ l = Final \/ l = Virtual -> td_mut t = Const \/ td_mut t = Modify ->
    (td_mut t = Const -> Forall (fun a => an_kind a <> Extends) an) ->
    (forall l', ds = Some l' -> Forall (sound (Blue (is_const (td_mut t)))) l') ->
    sound sc (DObject v f l t an ds)
| sound_interface sc v f t an ds : td_mut t = Const \/ td_mut t = Modify -> Forall (fun a => an_kind a = Implements) an ->
    Forall (sound (Blue (is_const (td_mut t)))) ds -> (forallb interface_free ds = true -> Forall bodiless ds) ->
    sound sc (DInterface v f t an ds)
| sound_enum sc v f t es : td_args t = [] -> es <> [] -> NoDup (map fst es) -> StronglySorted Z.lt (map snd es) ->
    Forall (fun e => 0 <= snd e)%Z es -> sound sc (DEnum v f t es)
| sound_member sc v l f t n m a x : (place_const sc = true -> m = Const) -> (sc = Space -> l = Static) ->
    fits (td_name t) x \/ x = DText [] /\ td_name t = t_string \/ x = DInt 0 /\ td_name t <> t_string ->
    sound sc (DMember v l f t n m a x)
| sound_method sc v l f t n ps m e b : (place_const sc = true -> m = Const \/ structor_name n) -> (sc = Space -> l = Static) ->
    Forall sound_param ps -> (b = None -> l = Abstract \/ f = NotImplemented) ->
    (forall b', b = Some b' -> l <> Abstract /\ nested BRACKET_CURLY_OPEN BRACKET_CURLY_CLOSE b') ->
    sound sc (DMethod v l f t n ps m e b).
