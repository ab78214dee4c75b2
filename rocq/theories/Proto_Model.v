(** Model of prototype (generic type) constraints: reading them, building type names from them and
    substituting them.
    Code: /repo/Projects/Core/Core/Common/PrototypeConstraint.cpp,
          /repo/Projects/Core/Core/Designtime/Parser/Parser.cpp,
          /repo/Projects/Core/Core/Common/Method.cpp (initialize),
          /repo/Projects/Core/Core/Designtime/BluePrintObject.cpp (fromPrototype). *)
From Verif Require Import Base Text_Model Tok_Model Parse_Model.

(** PrototypeConstraint, Common/PrototypeConstraint.h: position, name of the placeholder, type it stands for,
    type it must inherit from. *)
Record constraint := Con { c_index : N; c_design : str; c_run : str; c_bound : str }.

(** _object and VALUE_NONE, Consts.h:119, 127. *)
Definition object_name : str := $"Object".

(** PrototypeConstraint::operator==, PrototypeConstraint.cpp:31-34: the design types are compared with
    themselves. *)
Definition con_eqb (a b : constraint) : bool := (c_index a =? c_index b)%N && str_eqb (c_design a) (c_design a).

(** PrototypeConstraints::operator==, PrototypeConstraint.cpp:47-61. *)
Fixpoint cons_eqb_loop (a b : list constraint) : bool :=
  match a, b with
  | x :: a', y :: b' => if con_eqb x y then cons_eqb_loop a' b' else false
  | _, _ => true
  end.
Definition cons_eqb (a b : list constraint) : bool :=
  if (length a =? length b)%nat then cons_eqb_loop a b else false.

(** hasRuntimeType, PrototypeConstraint.cpp:41-44. *)
Definition has_run (c : constraint) : bool := negb (str_eqb (c_run c) []).

(** The default constructor, PrototypeConstraint.cpp:18-21: index SIZE_MAX. *)
Definition no_constraint : constraint := Con 18446744073709551615 [] [] [].

(** lookupConstraint, PrototypeConstraint.cpp:143-152. *)
Fixpoint lookup_constraint (l : list constraint) (t : str) : constraint :=
  match l with
  | [] => no_constraint
  | c :: l' => if str_eqb (c_design c) t then c else lookup_constraint l' t
  end.

(** lookupType, PrototypeConstraint.cpp:154-163. *)
Fixpoint lookup_type (l : list constraint) (t : str) : str :=
  match l with
  | [] => t
  | c :: l' => if str_eqb (c_design c) t then c_run c else lookup_type l' t
  end.

(** buildRawConstraints, PrototypeConstraint.cpp:64-83: [raw_rest this other] is what is appended. *)
Fixpoint raw_rest (this other : list constraint) : list constraint :=
  match this with
  | [] => []
  | c :: this' =>
      match other with
      | [] => Con (c_index c) (c_design c) object_name [] :: raw_rest this' []
      | _ :: other' => raw_rest this' other'
      end
  end.
Definition raw_constraints (this other : list constraint) : list constraint := other ++ raw_rest this other.

(** buildRuntimeConstraints, PrototypeConstraint.cpp:85-104. *)
Definition runtime_constraints (this other : list constraint) : list constraint :=
  map (fun c => let found := lookup_constraint other (c_design c) in
                if has_run found then found else Con (c_index c) (c_design c) object_name []) this.

(** extractTypes, PrototypeConstraint.cpp:106-119: a comma only if something has been written already. *)
Definition extract_types (l other : list constraint) : str :=
  $"<" ++ fold_left (fun r c => (match r with [] => r | _ => r ++ $"," end) ++ lookup_type l (c_design c)) other [] ++ $">".

(** buildDesigntimeConstraintTypename, Parser.cpp:73-91. *)
Fixpoint separated (f : constraint -> str) (l : list constraint) : str :=
  match l with
  | [] => []
  | c :: l' => f c ++ (if (1 <? length (c :: l'))%nat then $"," else []) ++ separated f l'
  end.
Definition design_name (name : str) (l : list constraint) : str :=
  match l with [] => name | _ => name ++ $"<" ++ separated c_design l ++ $">" end.

(** buildRuntimeConstraintTypename, Parser.cpp:93-111. *)
Definition run_name (name : str) (l : list constraint) : str :=
  match l with
  | [] => name
  | _ => name ++ $"<" ++ separated (fun c => if str_eqb (c_run c) [] then object_name else c_run c) l ++ $">"
  end.

(** mergeConstraints, Parser.cpp:49-70. *)
Fixpoint merge_loop (d r : list constraint) : list constraint :=
  match d, r with
  | x :: d', y :: r' => Con (c_index x) (c_design x) (c_run y) (c_bound x) :: merge_loop d' r'
  | _, _ => []
  end.
Definition merge_constraints (d r : list constraint) : res (list constraint) :=
  if (length d =? length r)%nat then Ok (merge_loop d r) else Throw "SyntaxError".

(** collectDesigntimePrototypeConstraints, Parser.cpp:184-235, from behind the opening bracket. Running over the
    end of the tokens is undefined. Simplification: the index is an [unsigned int] in the code and unbounded here. *)
Fixpoint design_loop (i : N) (ts : list token) : res (list constraint * list token) :=
  match ts with
  | [] => UB
  | t :: ts1 =>
      if ttype_eqb (k_type t) COMPARE_GREATER then Ok ([], ts1)
      else
        match ts1 with
        | [] => UB
        | c :: ts2 =>
            if ttype_eqb (k_type c) COLON then
              match ts2 with
              | [] => UB
              | b :: ts3 =>
                  if ttype_eqb (k_type b) IDENTIFIER then
                    let! r := match ts3 with
                              | [] => UB
                              | m :: ts4 => if ttype_eqb (k_type m) COMMA then design_loop (i + 1) ts4 else design_loop (i + 1) ts3
                              end in
                    Ok (Con i (k_text t) (k_text t) (k_text b) :: fst r, snd r)
                  else Throw "SyntaxError"
              end
            else
              let! r := if ttype_eqb (k_type c) COMMA then design_loop (i + 1) ts2 else design_loop (i + 1) ts1 in
              Ok (Con i (k_text t) (k_text t) [] :: fst r, snd r)
        end
  end.
Definition collect_design (ts : list token) : res (list constraint * list token) :=
  match ts with
  | [] => UB
  | t :: ts' => if ttype_eqb (k_type t) COMPARE_LESS then design_loop 0 ts' else Ok ([], ts)
  end.

(** collectRuntimePrototypeConstraints, Parser.cpp:237-278. *)
Fixpoint run_loop (i : N) (ts : list token) : res (list constraint * list token) :=
  match ts with
  | [] => UB
  | t :: ts1 =>
      if ttype_eqb (k_type t) COMPARE_GREATER then Ok ([], ts1)
      else
        let! r := match ts1 with
                  | [] => UB
                  | c :: ts2 =>
                      if ttype_eqb (k_type c) COLON then
                        match ts2 with
                        | [] => UB
                        | m :: ts3 => if ttype_eqb (k_type m) COMMA then run_loop (i + 1) ts3 else run_loop (i + 1) ts2
                        end
                      else if ttype_eqb (k_type c) COMMA then run_loop (i + 1) ts2 else run_loop (i + 1) ts1
                  end in
        Ok (Con i [] (k_text t) [] :: fst r, snd r)
  end.
Definition collect_run (ts : list token) : res (list constraint * list token) :=
  match ts with
  | [] => UB
  | t :: ts' => if ttype_eqb (k_type t) COMPARE_LESS then run_loop 0 ts' else Ok ([], ts)
  end.

(** identify, Parser.cpp:304-319: the loop, entered behind the previous part of the name. The text and the rest. *)
Fixpoint identify_loop (ty : ttype) (acc : str) (ts : list token) : res (str * list token) :=
  if ttype_eqb ty IDENTIFIER then
    match ts with
    | [] => UB
    | s :: ts1 =>
        if ttype_eqb (k_type s) OPERATOR_SCOPE then
          match ts1 with
          | [] => UB
          | n :: ts2 => identify_loop (k_type n) (acc ++ k_text s ++ k_text n) ts2
          end
        else Ok (acc, ts)
    end
  else Ok (acc, ts).
Definition identify (ts : list token) : res (str * list token) :=
  match ts with [] => UB | t :: ts' => identify_loop (k_type t) (k_text t) ts' end.

(** Common::TypeDeclaration, TypeDeclaration.h:23-52 (mutability left out). *)
Record tdecl := TDecl { td_name : str; td_combined : str; td_cons : list constraint }.

(** parseTypeDeclaration, Parser.cpp:522-538, without the optional mutability; [named] = the scope is a method. *)
Definition parse_type (named : bool) (ts : list token) : res (tdecl * list token) :=
  let! n := identify ts in
  let! c := if named then collect_run (snd n) else collect_design (snd n) in
  Ok (TDecl (fst n) [] (fst c), snd c).

(** What Method::initialize changes: return type, parameters (name, type, type constraints) and body. *)
Record gmethod := GMethod {
  g_ret : tdecl; g_params : list (str * str * list constraint); g_tokens : list token; g_done : bool }.

(** The new type of a parameter, Method.cpp:184-207: the parameter is replaced only if the name changes,
    and then without constraints. *)
Definition init_param (l : list constraint) (p : str * str * list constraint) : str * str * list constraint :=
  let '(n, t, cs) := p in
  let t' := lookup_type l t ++ match cs with [] => [] | _ => extract_types l cs end in
  if str_eqb t t' then p else (n, t', []).

(** The new text of a token of the body, Method.cpp:210-220. *)
Definition init_token (l : list constraint) (t : token) : token :=
  if ttype_eqb (k_type t) IDENTIFIER then
    let ty := lookup_type l (k_text t) in
    if str_eqb ty (k_text t) then t else set_text t ty
  else t.

(** Method::initialize, Method.cpp:162-223. *)
Definition init_method (l : list constraint) (m : gmethod) : gmethod :=
  if g_done m then m
  else
    let r := g_ret m in
    let ty := lookup_type l (td_name r) ++ match td_cons r with [] => [] | _ => extract_types l (td_cons r) end in
    GMethod (TDecl (td_name r) ty []) (map (init_param l) (g_params m)) (map (init_token l) (g_tokens m)) true.

(** A member of a prototype: type name and constraints, BluePrintObject.cpp:144-170. *)
Definition init_member (l : list constraint) (m : str * list constraint) : str * list constraint :=
  match snd m with
  | [] => (lookup_type l (fst m), [])
  | _ => (fst m, runtime_constraints (snd m) l)
  end.

(** The test a prototype's arguments have to pass before the prototype is instantiated, Repository.cpp:58-60;
    then the arguments are joined with the placeholders, 65. *)
Definition instantiate (proto args : list constraint) : res (list constraint) :=
  if cons_eqb proto args then merge_constraints proto args else Throw "TypeMismatch".

(** A member whose type is a prototype, Repository.cpp:552-570 and prepareType, 755-774: missing arguments are
    filled; unless the resulting type is [known] already, it is instantiated. *)
Definition member_type (known : str -> bool) (base : list constraint) (name : str) (cons : list constraint) : res str :=
  let args := raw_constraints base cons in
  if known (run_name name args) then Ok (run_name name args)
  else let! _ := instantiate base args in Ok (run_name name args).
