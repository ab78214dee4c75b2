(** Model of the reader of declarations: Core/Designtime/Parser/Parser.cpp and Core/Designtime/Analyser.cpp.
    A place in the token list is the list of the tokens from there on; reading at the end of the list
    (token->type() at end()) is undefined behaviour.
    Simplified: names of types are kept as written (Analyser::resolveType, 748-793, that looks them up, is left out), and so
    is the entering of the symbols in their scopes (SymbolScope::define, Scope_Model.v) and the resolving of a
    namespace already there (563-584); the ancestors are kept in the order of writing instead of in a std::set
    (Inherit_Model.v), and the default constructor (193-206) is not added. *)
From Verif Require Import Base Text_Model TypeTable Tok_Model Parse_Model Enum_Model.

Definition is (t : token) (ty : ttype) : bool := ttype_eqb (k_type t) ty.
(** expect, Common/Utils.cpp:17-22. *)
Definition expect_at (ty : ttype) (ts : list token) : res unit :=
  match ts with [] => UB | t :: _ => if is t ty then Ok tt else Throw "SyntaxError" end.

(** ** Words, Common/Attributes/Types.cpp and Common/Visibility.cpp *)
Inductive visibility := Designtime | Private | Protected | Public.
(** Visibility::convert, Visibility.cpp:22-31; the assert is off in a release build. *)
Definition to_visibility (s : str) : visibility :=
  if str_eqb s ($"Designtime") then Designtime else if str_eqb s ($"private") then Private
  else if str_eqb s ($"protected") then Protected else if str_eqb s ($"public") then Public else Private.
Inductive feature := FUnspecified | Deprecated | NotImplemented | Stable | Unstable.
(** LanguageFeatureState::convert, Attributes/Types.cpp:104-113. *)
Definition to_feature (s : str) : feature :=
  if str_eqb s ($"deprecated") then Deprecated else if str_eqb s [] then Stable
  else if str_eqb s ($"notimplemented") then NotImplemented else if str_eqb s ($"stable") then Stable
  else if str_eqb s ($"unstable") then Unstable else FUnspecified.
Inductive layout := LUnspecified | Abstract | Final | Override | Static | Virtual.
(** MemoryLayout::convert, Attributes/Types.cpp:129-138. *)
Definition to_layout (s : str) : layout :=
  if str_eqb s ($"abstract") then Abstract else if str_eqb s ($"final") then Final
  else if str_eqb s ($"override") then Override else if str_eqb s ($"static") then Static
  else if str_eqb s ($"virtual") then Virtual else LUnspecified.
Inductive mutability := MUnknown | Const | Modify.
(** Mutability::convert, Attributes/Types.cpp:155-161. *)
Definition to_mutability (s : str) : mutability :=
  if str_eqb s ($"const") then Const else if str_eqb s ($"modify") then Modify else MUnknown.
Inductive access := AUnspecified | ByReference | ByValue.
(** AccessMode::convert, Attributes/Types.cpp:16-22: "val" is no mode of its own. *)
Definition to_access (s : str) : access :=
  if str_eqb s ($"default") then AUnspecified else if str_eqb s ($"ref") then ByReference else AUnspecified.
Inductive throwing := TUnspecified | Nothrow | Throws.
(** CheckedExceptions::convert, Attributes/Types.cpp:81-87. *)
Definition to_throwing (s : str) : throwing :=
  if str_eqb s ($"nothrow") then Nothrow else if str_eqb s ($"throws") then Throws else TUnspecified.

(** parseVisibility, parseLanguageFeatureState, parseMemoryLayout, parseMutability, Parser.cpp:433-464 and 636-645: an
    optional word of the given kind. *)
Definition parse_word {A} (ty : ttype) (conv : str -> A) (default : A) (ts : list token) : res (A * list token) :=
  match ts with
  | [] => UB
  | t :: r => if is t ty then Ok (conv (k_text t), r) else Ok (default, ts)
  end.
(** parseAccessMode, Parser.cpp:402-411. *)
Definition parse_access (default : access) (ts : list token) : res (access * list token) :=
  match ts with
  | [] => UB
  | t :: r => if is t ACCESS_MODE || str_eqb (k_text t) ($"default") then Ok (to_access (k_text t), r) else Ok (default, ts)
  end.
(** parseExceptions, Parser.cpp:418-431: by the text of the token alone. *)
Definition parse_exceptions (default : throwing) (ts : list token) : res (throwing * list token) :=
  match ts with
  | [] => UB
  | t :: r => match to_throwing (k_text t) with TUnspecified => Ok (default, ts) | e => Ok (e, r) end
  end.

(** ** Types *)
(** A type as declared, Common/TypeDeclaration.h: name, type parameters with their constraints, mutability. *)
Record tdecl := TDecl { td_name : str; td_args : list (str * str); td_mut : mutability }.
(** identify, Parser.cpp:304-319; [acc] already holds the text of the first token. *)
Fixpoint identify_loop (acc : str) (ts : list token) : res (str * list token) :=
  match ts with
  | [] => UB
  | t :: r =>
      if is t IDENTIFIER then
        match r with
        | [] => UB
        | s :: r2 =>
            if is s OPERATOR_SCOPE then
              match r2 with [] => UB | u :: _ => identify_loop (acc ++ k_text s ++ k_text u) r2 end
            else Ok (acc, r)
        end
      else Ok (acc, r)
  end.
Definition identify (ts : list token) : res (str * list token) :=
  match ts with [] => UB | t :: _ => identify_loop (k_text t) ts end.
(** collectDesigntimePrototypeConstraints, Parser.cpp:184-234: the names of the type parameters with their
    constraints; the loop 197-229. *)
Fixpoint design_loop (ts : list token) : res (list (str * str) * list token) :=
  match ts with
  | [] => UB
  | t :: r =>
      if is t COMPARE_GREATER then Ok ([], r) else
      match r with
      | [] => UB
      | c :: r1 =>
          if is c COLON then
            match r1 with
            | [] => UB
            | k :: r2 =>
                if is k IDENTIFIER then
                  match r2 with
                  | [] => UB
                  | m :: r3 =>
                      let! x := (if is m COMMA then design_loop r3 else design_loop r2) in
                      Ok ((k_text t, k_text k) :: fst x, snd x)
                  end
                else Throw "SyntaxError"
            end
          else
            let! x := (if is c COMMA then design_loop r1 else design_loop r) in
            Ok ((k_text t, []) :: fst x, snd x)
      end
  end.
Definition collect_design (ts : list token) : res (list (str * str) * list token) :=
  match ts with [] => UB | t :: r => if is t COMPARE_LESS then design_loop r else Ok ([], ts) end.
(** collectRuntimePrototypeConstraints, Parser.cpp:236-278: the types given for the parameters. *)
Fixpoint runtime_loop (ts : list token) : res (list str * list token) :=
  match ts with
  | [] => UB
  | t :: r =>
      if is t COMPARE_GREATER then Ok ([], r) else
      match r with
      | [] => UB
      | c :: r1 =>
          if is c COLON then
            match r1 with
            | [] => UB
            | m :: r2 => let! x := (if is m COMMA then runtime_loop r2 else runtime_loop r1) in Ok (k_text t :: fst x, snd x)
            end
          else let! x := (if is c COMMA then runtime_loop r1 else runtime_loop r) in Ok (k_text t :: fst x, snd x)
      end
  end.
Definition collect_runtime (ts : list token) : res (list str * list token) :=
  match ts with [] => UB | t :: r => if is t COMPARE_LESS then runtime_loop r else Ok ([], ts) end.
(** parseTypeDeclaration, Parser.cpp:522-538; the scopes of the analyser are no named scopes (they are objects and namespaces), so the
    first kind of constraints is read. *)
Definition parse_type (ts : list token) : res (tdecl * list token) :=
  let! a := identify ts in
  let! b := collect_design (snd a) in
  let! c := parse_word MUTABILITY to_mutability Modify (snd b) in
  Ok (TDecl (fst a) (fst b) (fst c), snd c).
(** The same inside of a method body. *)
Definition parse_type_runtime (ts : list token) : res (str * list str * mutability * list token) :=
  let! a := identify ts in
  let! b := collect_runtime (snd a) in
  let! c := parse_word MUTABILITY to_mutability Modify (snd b) in
  Ok (fst a, fst b, fst c, snd c).

(** ** Default values *)
(** Numbers with a fraction are kept as their text (stringToDouble, stringToFloat). *)
Inductive dval := DBool (b : bool) | DDouble (s : str) | DFloat (s : str) | DInt (z : Z) | DText (s : str) | DNull.
Definition atomic_names : list str := [t_bool; t_double; t_float; t_int16; t_int; t_int64; t_string; t_void].
(** static_cast<int16_t>. *)
Definition to_int16 (z : Z) : Z := ((z + 32768) mod 65536 - 32768)%Z.
(** parseValueInitialization, Parser.cpp:540-634: the value; the place is the one of the last token read. stringToInt gives
    an int64_t, so nothing is cut for int and int64. *)
Definition parse_value (ts : list token) (ty : str) : res (dval * list token) :=
  match ts with
  | [] => UB
  | m :: r =>
      let minus := is m MATH_SUBTRACT in
      let ts1 := if minus then r else ts in
      let sign : str := if minus then [chr 45] else [] in
      match ts1 with
      | [] => UB
      | t :: _ =>
          match k_type t with
          | CONST_BOOLEAN =>
              if negb (str_eqb ty t_bool) then Throw "DesigntimeException"
              else if minus then Throw "SyntaxError" else Ok (DBool (string_to_bool (k_text t)), ts1)
          | CONST_DOUBLE =>
              if negb (str_eqb ty t_double) then Throw "DesigntimeException" else Ok (DDouble (sign ++ k_text t), ts1)
          | CONST_FLOAT =>
              if negb (str_eqb ty t_float) then Throw "DesigntimeException" else Ok (DFloat (sign ++ k_text t), ts1)
          | CONST_INTEGER =>
              let z := string_to_int (sign ++ k_text t) in
              if str_eqb ty t_int16 then Ok (DInt (to_int16 z), ts1)
              else if str_eqb ty t_int then Ok (DInt z, ts1)
              else if str_eqb ty t_int64 then Ok (DInt z, ts1) else Throw "DesigntimeException"
          | CONST_LITERAL =>
              if negb (str_eqb ty t_string) then Throw "DesigntimeException"
              else if minus then Throw "SyntaxError" else Ok (DText (k_text t), ts1)
          | IDENTIFIER =>
              if existsb (str_eqb ty) atomic_names then Throw "DesigntimeException"
              else if negb (str_eqb (k_text t) ($"null")) then Throw "SyntaxError"
              else if minus then Throw "SyntaxError" else Ok (DNull, ts1)
          | _ => if minus then Throw "SyntaxError" else Throw "NotSupported"
          end
      end
  end.

(** ** Parameters *)
Record param := Param { pa_name : str; pa_type : tdecl; pa_mut : mutability; pa_access : access; pa_default : option dval }.
(** ++token. *)
Definition next (ts : list token) : res (list token) := match ts with [] => UB | _ :: r => Ok r end.
(** One parameter, Parser.cpp:473-511. *)
Definition parse_param (ts : list token) : res (param * list token) :=
  let! a := parse_type ts in
  let! n := (match snd a with
             | [] => UB
             | t :: r => if is t IDENTIFIER then Ok (k_text t, r) else Ok ([], t :: r)
             end) in
  let! m := parse_word MUTABILITY to_mutability Modify (snd n) in
  let! ac := parse_access AUnspecified (snd m) in
  let! d := (match snd ac with
             | [] => UB
             | t :: r =>
                 if is t ASSIGN then
                   if bool_decide (fst n = []) then Throw "SyntaxError" else
                   let! v := parse_value r (td_name (fst a)) in
                   let! r2 := next (snd v) in
                   Ok (Some (fst v), r2)
                 else Ok (None, t :: r)
             end) in
  match fst d, fst ac with
  | Some _, ByReference => Throw "SyntaxError"
  | _, _ => Ok (Param (fst n) (fst a) (fst m) (fst ac) (fst d), snd d)
  end.
(** parseParameters, Parser.cpp:466-520: the loop behind the opening parenthesis; the token behind a parameter that is no closing
    parenthesis is skipped, whatever it is. The place at the end is the closing parenthesis. *)
Fixpoint params_loop (fuel : nat) (ts : list token) : res (list param * list token) :=
  match fuel with
  | O => Fuel
  | S fuel' =>
      match ts with
      | [] => UB
      | t :: _ =>
          if is t PARENTHESIS_CLOSE then Ok ([], ts) else
          let! p := parse_param ts in
          match snd p with
          | [] => UB
          | c :: r =>
              if is c PARENTHESIS_CLOSE then Ok ([fst p], snd p) else
              let! x := params_loop fuel' r in Ok (fst p :: fst x, snd x)
          end
      end
  end.
Definition parse_params (ts : list token) : res (list param * list token) :=
  let! _ := expect_at PARENTHESIS_OPEN ts in
  let! r := next ts in
  params_loop (S (length r)) r.

(** ** Inheritance *)
Inductive relation := RUnknown | Extends | Implements | Replicates.
Record ancestor := Ancestor { an_kind : relation; an_name : str; an_args : list (str * str) }.
(** The relation a word stands for. *)
Definition relation_word (s : str) : option relation :=
  if str_eqb s ($"extends") then Some Extends else if str_eqb s ($"implements") then Some Implements
  else if str_eqb s ($"replicates") then Some Replicates else None.
(** The end of the loop body, Parser.cpp:162-178: a name, or the end. *)
Definition ancestor_of (go : list token -> res (list ancestor * list token)) (k : relation) (ts : list token) :
    res (list ancestor * list token) :=
  match ts with
  | [] => UB
  | t :: _ =>
      if is t IDENTIFIER then
        let! a := identify ts in
        let! c := collect_design (snd a) in
        let! x := go (snd c) in
        Ok (Ancestor k (fst a) (fst c) :: fst x, snd x)
      else Ok ([], ts)
  end.
(** collectInheritance, Parser.cpp:113-182: the loop 126-179, the relation so far and whether "replicates" was read. *)
Fixpoint inherit_loop (fuel : nat) (repl : bool) (k : relation) (ts : list token) : res (list ancestor * list token) :=
  match fuel with
  | O => Fuel
  | S fuel' =>
      match ts with
      | [] => UB
      | t :: r =>
          match relation_word (k_text t) with
          | Some k' =>
              if repl then Throw "SyntaxError" else
              let repl' := match k' with Replicates => true | _ => false end in
              ancestor_of (inherit_loop fuel' repl' k') k' r
          | None =>
              if is t COMMA then inherit_loop fuel' repl k r
              else ancestor_of (inherit_loop fuel' repl k) k ts
          end
      end
  end.
Definition collect_inheritance (ts : list token) : res (list ancestor * list token) :=
  match ts with
  | [] => UB
  | t :: _ => if is t RESERVED_WORD then inherit_loop (S (length ts)) false RUnknown ts else Ok ([], ts)
  end.

(** ** Kinds of declarations *)
(** checkSyntax, Parser.cpp:22-46; an expected token is its type, text and whether it is optional. An optional token found is
    skipped once. The iterator over the expected tokens is moved on at an optional one without a test for the end;
    the lists used never end with one. *)
Fixpoint check_loop (found : list token) (exp : list (ttype * str)) : res bool :=
  match exp with
  | [] => Ok true
  | (ty, txt) :: exp' =>
      match found with
      | [] => UB
      | f :: r =>
          let found' := if k_opt f then r else found in
          match found' with
          | [] => UB
          | g :: r' =>
              if negb (is g ty) then Ok false
              else if negb (bool_decide (txt = [])) && negb (str_eqb txt (k_text g)) then Ok false
              else check_loop r' exp'
          end
      end
  end.
(** isEnumDeclaration, Parser.cpp:323-332: the expected visibility is optional, so it is skipped among the expected tokens. *)
Definition is_enum (ts : list token) : res bool := check_loop ts [(RESERVED_WORD, $"enum"); (IDENTIFIER, [])].
(** isLibraryReference, Parser.cpp:353-361. *)
Definition is_import (ts : list token) : res bool := check_loop ts [(RESERVED_WORD, $"import"); (IDENTIFIER, [])].
Definition skip (ty : ttype) (ts : list token) : res (list token) :=
  match ts with [] => UB | t :: r => Ok (if is t ty then r else ts) end.
Definition at_word (w : str) (ts : list token) : res bool :=
  match ts with [] => UB | t :: _ => Ok (is t RESERVED_WORD && str_eqb (k_text t) w) end.
(** isInterfaceDeclaration, isNamespaceDeclaration, isObjectDeclaration, Parser.cpp:336-349, 365-378, 382-400. *)
Definition is_interface (ts : list token) : res bool :=
  let! a := skip VISIBILITY ts in let! b := skip LANGUAGE_FEATURE_STATE a in at_word ($"interface") b.
Definition is_namespace (ts : list token) : res bool :=
  let! a := skip VISIBILITY ts in let! b := skip LANGUAGE_FEATURE_STATE a in at_word ($"namespace") b.
Definition is_object (ts : list token) : res bool :=
  let! a := skip VISIBILITY ts in let! b := skip LANGUAGE_FEATURE_STATE a in let! c := skip MEMORY_LAYOUT b in
  at_word ($"object") c.

(** ** Declarations *)
(** What is entered for a declaration, with the tokens of a method body. *)
Inductive decl :=
| DImport (extension : bool) (path : str)
| DNamespace (v : visibility) (f : feature) (path : list str) (body : list decl)
| DObject (v : visibility) (f : feature) (l : layout) (t : tdecl) (anc : list ancestor) (body : option (list decl))
| DInterface (v : visibility) (f : feature) (t : tdecl) (anc : list ancestor) (body : list decl)
| DEnum (v : visibility) (f : feature) (t : tdecl) (entries : list (str * Z))
| DMember (v : visibility) (l : layout) (f : feature) (t : tdecl) (name : str) (m : mutability) (a : access) (value : dval)
| DMethod (v : visibility) (l : layout) (f : feature) (t : tdecl) (name : str) (ps : list param) (m : mutability)
    (e : throwing) (body : option (list token)).

(** The scope the declarations are entered in: a namespace or an object, that may be const. *)
Inductive place := Space | Blue (const : bool).
Definition place_const (sc : place) : bool := match sc with Space => false | Blue c => c end.
Definition is_const (m : mutability) : bool := match m with Const => true | _ => false end.

(** createLibraryReference, Analyser.cpp:336-370: the path 348-357. *)
Fixpoint path_loop (sep : str) (ts : list token) : res (str * list token) :=
  match ts with
  | [] => UB
  | t :: r =>
      if is t IDENTIFIER then
        match r with
        | [] => UB
        | s :: r2 =>
            if is s OPERATOR_SCOPE then let! x := path_loop sep r2 in Ok (k_text t ++ sep ++ fst x, snd x)
            else Ok (k_text t, r)
        end
      else Ok ([], ts)
  end.
Definition create_import (ts : list token) : res (decl * list token) :=
  let! _ := expect_at RESERVED_WORD ts in
  let! r := next ts in
  match r with
  | [] => UB
  | t :: r1 =>
      let ext := str_eqb (k_text t) ($"extension") in
      let! p := path_loop ($".") (if ext then r1 else r) in
      let! _ := expect_at SEMICOLON (snd p) in
      Ok (DImport ext (fst p), snd p)
  end.
(** createEnum, Analyser.cpp:226-267. *)
Definition create_enum (ts : list token) : res (decl * list token) :=
  let! v := parse_word VISIBILITY to_visibility Private ts in
  let! f := parse_word LANGUAGE_FEATURE_STATE to_feature Stable (snd v) in
  match snd f with
  | [] => UB
  | w :: r =>
      if negb (str_eqb (k_text w) ($"enum")) then match r with [] => UB | _ => Throw "SyntaxError" end else
      let! t := parse_type r in
      match td_args (fst t) with
      | _ :: _ => match snd t with [] => UB | _ => Throw "SyntaxError" end
      | [] =>
          let! b := parser_collect_scope (snd t) in
          let! es := build_enum (fst b) in
          Ok (DEnum (fst v) (fst f) (fst t) es, snd b)
      end
  end.
(** createMemberStub, Analyser.cpp:404-461; without a value a string is empty and everything else 0. *)
Definition create_member (sc : place) (v : visibility) (l : layout) (f : feature) (t : tdecl) (name : str)
    (ts : list token) : res (decl * list token) :=
  let! m := parse_word MUTABILITY to_mutability Modify ts in
  let! a := parse_access ByValue (snd m) in
  if place_const sc && negb (is_const (fst m)) then
    match snd a with [] => UB | _ => Throw "ConstCorrectnessViolated" end
  else
    let! d := (match snd a with
               | [] => UB
               | x :: r =>
                   if is x ASSIGN then
                     let! y := parse_value r (td_name t) in let! r2 := next (snd y) in Ok (fst y, r2)
                   else Ok (if str_eqb (td_name t) t_string then DText [] else DInt 0, x :: r)
               end) in
    let! _ := expect_at SEMICOLON (snd d) in
    Ok (DMember v l f t name (fst m) (fst a) (fst d), snd d).
(** Constructors and destructors, Analyser.cpp:478-487. *)
Definition is_structor (sc : place) (name : str) : bool :=
  match sc with Space => false | Blue _ => str_eqb name ($"Constructor") || str_eqb name ($"Destructor") end.
(** PrototypeConstraint::hasRuntimeType, PrototypeConstraint.cpp:42-45: the run type is the text of the parameter (Parser.cpp:199). *)
Definition no_run_type (a : str * str) : bool := bool_decide (fst a = []).
(** createMethodStub, Analyser.cpp:463-541. [iface] tells whether an interface is being read (isInterface). *)
Definition create_method (iface : bool) (sc : place) (v : visibility) (l : layout) (f : feature) (t : tdecl) (name : str)
    (ts : list token) : res (decl * list token) :=
  let abstract := match l with Abstract => true | _ => false end in
  if iface && negb abstract then Throw "SyntaxError" else
  let structor := is_structor sc name in
  let! ps := parse_params ts in
  let! ts1 := next (snd ps) in
  let! m := parse_word MUTABILITY to_mutability (if structor then Modify else Const) ts1 in
  let! e := parse_exceptions Nothrow (snd m) in
  match snd e with
  | [] => UB
  | x :: _ =>
      if negb structor && place_const sc && negb (is_const (fst m)) then Throw "ConstCorrectnessViolated" else
      let! b := (if is x BRACKET_CURLY_OPEN then
                   if abstract then Throw "SyntaxError" else
                   let! c := parser_collect_scope (snd e) in Ok (Some (fst c), snd c)
                 else if negb abstract && negb (match f with NotImplemented => true | _ => false end)
                 then Throw "SyntaxError" else Ok (None, snd e)) in
      if match sc with Space => existsb no_run_type (td_args t) | Blue _ => false end
      then Throw "SyntaxError"
      else Ok (DMethod v l f t name (fst ps) (fst m) (fst e) (fst b), snd b)
  end.
(** createMemberOrMethod, Analyser.cpp:372-402. *)
Definition create_member_or_method (iface : bool) (sc : place) (ts : list token) : res (decl * list token) :=
  let! v := parse_word VISIBILITY to_visibility Private ts in
  let! l := (if iface then Ok (Abstract, snd v)
             else match sc with
                  | Space => Ok (Static, snd v)
                  | Blue _ => parse_word MEMORY_LAYOUT to_layout Virtual (snd v)
                  end) in
  let! f := parse_word LANGUAGE_FEATURE_STATE to_feature Stable (snd l) in
  let! t := parse_type (snd f) in
  match snd t with
  | [] => UB
  | n :: r =>
      match r with
      | [] => UB
      | x :: _ =>
          if is x PARENTHESIS_OPEN
          then create_method iface sc (fst v) (fst l) (fst f) (fst t) (k_text n) r
          else create_member sc (fst v) (fst l) (fst f) (fst t) (k_text n) r
      end
  end.
(** The names of createNamespace, Analyser.cpp:559-590: the point between two names may be missing. *)
Fixpoint names_loop (ts : list token) : res (list str * list token) :=
  match ts with
  | [] => UB
  | t :: r =>
      if is t IDENTIFIER then
        match r with
        | [] => UB
        | s :: r2 => let! x := (if is s OPERATOR_SCOPE then names_loop r2 else names_loop r) in Ok (k_text t :: fst x, snd x)
        end
      else Ok ([], ts)
  end.
Definition is_extends (a : ancestor) : bool := match an_kind a with Extends => true | _ => false end.
Definition is_implements (a : ancestor) : bool := match an_kind a with Implements => true | _ => false end.
Definition is_replicates (a : ancestor) : bool := match an_kind a with Replicates => true | _ => false end.

(** One declaration, the body of the loop of Analyser::generate, Analyser.cpp:614-641, with createBluePrint (115-224),
    createInterface (269-334) and createNamespace (543-604). [go] reads the declarations of a body; [iface] is the member
    mProcessingInterface, returned with its new value. The first ancestor of the std::set of ancestors is a replication
    only if all are (Ancestor::operator<, Ancestor.cpp:31-46). *)
Definition create_one (go : place -> bool -> list token -> res (list decl * bool)) (sc : place) (iface : bool) (ts : list token) :
    res (decl * bool * list token) :=
  let! o := is_object ts in
  if o : bool then
    let! v := parse_word VISIBILITY to_visibility Private ts in
    let! f := parse_word LANGUAGE_FEATURE_STATE to_feature Stable (snd v) in
    let! l := parse_word MEMORY_LAYOUT to_layout Virtual (snd f) in
    match fst l with
    | Abstract | Final | Virtual =>
        let! r := next (snd l) in
        let! t := parse_type r in
        let! an := collect_inheritance (snd t) in
        match snd an with
        | [] => UB
        | x :: _ =>
            let repl := negb (bool_decide (fst an = [])) && forallb is_replicates (fst an) in
            if negb repl && negb (is x SEMICOLON) then
              let! b := parser_collect_scope (snd an) in
              if existsb is_extends (fst an) && is_const (td_mut (fst t)) then Throw "ConstCorrectnessViolated" else
              if match td_mut (fst t) with MUnknown => true | _ => false end then Throw "SyntaxError" else
              let! ds := go (Blue (is_const (td_mut (fst t)))) iface (fst b) in
              Ok (DObject (fst v) (fst f) (fst l) (fst t) (fst an) (Some (fst ds)), snd ds, snd b)
            else
              if existsb is_extends (fst an) && is_const (td_mut (fst t)) then Throw "ConstCorrectnessViolated" else
              if match td_mut (fst t) with MUnknown => true | _ => false end then Throw "SyntaxError" else
              Ok (DObject (fst v) (fst f) (fst l) (fst t) (fst an) None, iface, snd an)
        end
    | _ => match snd l with [] => UB | _ => Throw "SyntaxError" end
    end
  else
  let! e := is_enum ts in
  if e : bool then let! x := create_enum ts in Ok (fst x, iface, snd x) else
  let! i := is_interface ts in
  if i : bool then
    let! v := parse_word VISIBILITY to_visibility Private ts in
    let! f := parse_word LANGUAGE_FEATURE_STATE to_feature Unstable (snd v) in
    let! r := next (snd f) in
    let! t := parse_type r in
    if match td_mut (fst t) with MUnknown => true | _ => false end then
      match snd t with [] => UB | _ => Throw "SyntaxError" end else
    let! an := collect_inheritance (snd t) in
    let! _ := expect_at BRACKET_CURLY_OPEN (snd an) in
    if negb (forallb is_implements (fst an)) then Throw "NotSupported" else
    let! b := parser_collect_scope (snd an) in
    let! ds := go (Blue (is_const (td_mut (fst t)))) true (fst b) in
    Ok (DInterface (fst v) (fst f) (fst t) (fst an) (fst ds), false, snd b)
  else
  let! m := is_import ts in
  if m : bool then let! x := create_import ts in Ok (fst x, iface, snd x) else
  let! n := is_namespace ts in
  if n : bool then
    match sc with
    | Blue _ => Throw "SyntaxError"
    | Space =>
        let! v := parse_word VISIBILITY to_visibility Private ts in
        let! f := parse_word LANGUAGE_FEATURE_STATE to_feature Stable (snd v) in
        let! r := next (snd f) in
        let! p := names_loop r in
        let! b := parser_collect_scope (snd p) in
        let! ds := go Space iface (fst b) in
        Ok (DNamespace (fst v) (fst f) (fst p) (fst ds), snd ds, snd b)
    end
  else let! x := create_member_or_method iface sc ts in Ok (fst x, iface, snd x).

(** Analyser::generate, Analyser.cpp:614-644. *)
Fixpoint generate (fuel : nat) (sc : place) (iface : bool) (ts : list token) : res (list decl * bool) :=
  match fuel with
  | O => Fuel
  | S fuel' =>
      match ts with
      | [] => Ok ([], iface)
      | t :: _ =>
          if is t ENDOFFILE then Ok ([], iface) else
          let! x := create_one (generate fuel') sc iface ts in
          let! r := next (snd x) in
          let! ds := generate fuel' sc (snd (fst x)) r in
          Ok (fst (fst x) :: fst ds, snd ds)
      end
  end.
(** processTokens, Analyser.cpp:733-746: the sanity check, then the declarations of the global namespace. *)
Definition analyse (ts : list token) : res (list decl) :=
  let! _ := sanity_check ts in
  let! x := generate (S (length ts)) Space false ts in
  Ok (fst x).
(** processString, Analyser.cpp:722-731. *)
Definition analyse_text (text : str) : res (list decl) := let! ts := tokenize text in analyse ts.
