(** Model of symbol scopes, method overloads and parameter lists.
    Code: /repo/Projects/Core/Core/Scope.cpp, Scope.h,
          /repo/Projects/Core/Core/Common/Method.cpp,
          /repo/Projects/Core/Core/Object.cpp (resolve, resolveMethod),
          /repo/Projects/Core/Core/Common/Visibility.h. *)
From Verif Require Import Base.

(** Common/Visibility.h: Designtime < Private < Protected < Public. *)
Inductive visibility := Designtime | Private | Protected | Public.
Definition vis_num (v : visibility) : nat :=
  match v with Designtime => 0 | Private => 1 | Protected => 2 | Public => 3 end.
Definition vis_geb (a b : visibility) : bool := (vis_num b <=? vis_num a)%nat.
Definition is_designtime (v : visibility) : bool :=
  match v with Designtime => true | _ => false end.

(** Runtime/Parameter.h: name, type name, default flag, value, reference
    (0 = none). The value is opaque; mutability and access mode are copied from
    the signature and not modelled. *)
Record param := Param { p_name : str; p_type : str; p_default : bool; p_value : Z; p_ref : N }.

(** Common/Method.h: what name resolution and overloading look at. [m_ptr] is
    the object's address: MethodCollection is a std::set<Method*>, iterated in
    address order (Scope.h:73). *)
Record method := Method {
  m_ptr : N; m_name : str; m_vis : visibility; m_sig : list param; m_final : bool }.

(** A non-method symbol: identity and visibility. *)
Record decl := Decl { d_id : N; d_vis : visibility }.

(** What resolve returns. *)
Inductive symbol := SymDecl (d : decl) | SymMethod (m : method).

(** SymbolScope / MethodScope (Namespace, BluePrintObject, Method) / Runtime::Object. *)
Inductive kind := KSym | KMet | KObj.

(** Scope.h:52-56, 107-113. [base] is the scope denoted by the symbol "base" of
    the scope, if it declares one (Repository.cpp:296,501).
    Simplification: an Object is its own [mThis]. *)
Inductive scope := Scope
  (k : kind) (syms exts : gmap str decl) (meths emeths : list method)
  (base parent : option scope).

Definition skind s := let 'Scope k _ _ _ _ _ _ := s in k.
Definition ssyms s := let 'Scope _ a _ _ _ _ _ := s in a.
Definition sexts s := let 'Scope _ _ a _ _ _ _ := s in a.
Definition smeths s := let 'Scope _ _ _ a _ _ _ := s in a.
Definition semeths s := let 'Scope _ _ _ _ a _ _ := s in a.
Definition sbase s := let 'Scope _ _ _ _ _ a _ := s in a.
Definition sparent s := let 'Scope _ _ _ _ _ _ a := s in a.

(** The look-ups in one table, Scope.cpp:115-128 / 302-315. *)
Definition find_decl (t : gmap str decl) (n : str) (v : visibility) : option symbol :=
  match t !! n with
  | Some d => if vis_geb (d_vis d) v then Some (SymDecl d) else None
  | None => None
  end.

(** The loops over the method collections, Scope.cpp:318-333. *)
Fixpoint find_meth (ms : list method) (n : str) (v : visibility) : option symbol :=
  match ms with
  | [] => None
  | m :: ms' =>
      if vis_geb (m_vis m) v then
        if str_eqb (m_name m) n then Some (SymMethod m) else find_meth ms' n v
      else find_meth ms' n v
  end.

(** First non-null result. *)
Definition orelse {A} (a : option A) (b : option A) : option A :=
  match a with Some x => Some x | None => b end.

(** What a scope offers itself: Scope.cpp:114-128 (SymbolScope) and 301-333
    (MethodScope). *)
Definition own (s : scope) (n : str) (v : visibility) : option symbol :=
  orelse (find_decl (ssyms s) n v)
    (orelse (find_decl (sexts s) n v)
      match skind s with
      | KSym => None
      | _ => orelse (find_meth (smeths s) n v) (find_meth (semeths s) n v)
      end).

(** visibility < Protected ? Protected : visibility, Object.cpp:498, 523. *)
Definition at_least_protected (v : visibility) : visibility :=
  match v with Designtime | Private => Protected | _ => v end.

Definition is_obj (s : scope) : bool := match skind s with KObj => true | _ => false end.

(** SymbolScope::resolve, Scope.cpp:112-136; MethodScope::resolve,
    Scope.cpp:299-358; Object::resolve, Object.cpp:485-508. *)
Fixpoint resolve (s : scope) (n : str) (only : bool) (v : visibility) {struct s} : option symbol :=
  let 'Scope k sy ex ms em base parent := s in
  let me := own (Scope k sy ex ms em base parent) n v in
  let up := fun onl : bool =>
    if onl then None else match parent with Some p => resolve p n onl v | None => None end in
  let inherited :=
    if is_designtime v then None
    else match base with Some b => resolve b n true v | None => None end in
  let met := fun onl : bool => orelse me (orelse inherited (up onl)) in
  match k with
  | KSym => orelse me (up only)
  | KMet => met only
  | KObj =>
      let r1 := met true in
      let r2 := match base with
                | Some b => if is_obj b && negb only then resolve b n only (at_least_protected v) else None
                | None => None
                end in
      let r3 := if only then None else met false in
      orelse r1 (orelse r2 r3)
  end.

(** Method::isSignatureValid, Method.cpp:236-286. Only the types of the given
    parameters matter. VALUE_NONE = "" (Consts.h:127). *)
Fixpoint sig_match (sig : list param) (types : list str) : bool :=
  match sig with
  | [] => true
  | p :: sig' =>
      match types with
      | t :: types' =>
          if negb (str_eqb (p_type p) t) && negb (str_eqb (p_type p) []) then false
          else sig_match sig' types'
      | [] => if p_default p then sig_match sig' [] else false
      end
  end.
Definition is_signature_valid (m : method) (params : list param) : bool :=
  if (length (m_sig m) <? length params)%nat then false
  else sig_match (m_sig m) (map p_type params).

(** Method::mergeParameters, Method.cpp:288-319. [ref] lives outside the loop. *)
Fixpoint merge_loop (sig params : list param) (ref : N) : list param :=
  match sig with
  | [] => []
  | s :: sig' =>
      match params with
      | p :: params' =>
          Param (p_name s) (p_type s) (p_default s) (p_value p) (p_ref p)
            :: merge_loop sig' params' (p_ref p)
      | [] =>
          Param (p_name s) (p_type s) (p_default s) (p_value s) ref
            :: merge_loop sig' [] ref
      end
  end.
Definition merge_parameters (m : method) (params : list param) : res (list param) :=
  if is_signature_valid m params then Ok (merge_loop (m_sig m) params 0%N)
  else Throw "ParameterCountMismatch".

(** Method::operator<, Method.cpp:93-119 (operator(), 66-91, is the same). *)
Fixpoint types_less (a b : list str) : option bool :=
  match a, b with
  | x :: a', y :: b' => if str_eqb x y then types_less a' b' else Some (str_ltb x y)
  | _, _ => None
  end.
Definition method_less (a b : method) : bool :=
  if str_eqb (m_name a) (m_name b) then
    let la := map p_type (m_sig a) in
    let lb := map p_type (m_sig b) in
    if (length la =? length lb)%nat then
      match types_less la lb with
      | Some r => r
      | None => (length la <? length lb)%nat
      end
    else (length la <? length lb)%nat
  else str_ltb (m_name a) (m_name b).

(** The loops of MethodScope::resolveMethod, Scope.cpp:362-376. *)
Fixpoint find_overload (ms : list method) (n : str) (ps : list param) (v : visibility) : option method :=
  match ms with
  | [] => None
  | m :: ms' =>
      if vis_geb (m_vis m) v && str_eqb (m_name m) n && is_signature_valid m ps then Some m
      else find_overload ms' n ps v
  end.

(** MethodScope::resolveMethod, Scope.cpp:360-401; Object::resolveMethod,
    Object.cpp:510-541. Simplification: a SymbolScope has no resolveMethod; the
    code casts the parent to MethodScope (Scope.cpp:397), here a KSym parent
    yields no method. *)
Fixpoint resolve_method (s : scope) (n : str) (ps : list param) (only : bool) (v : visibility)
    {struct s} : option method :=
  let 'Scope k sy ex ms em base parent := s in
  let me := orelse (find_overload ms n ps v) (find_overload em n ps v) in
  let up := fun onl : bool =>
    if onl then None else match parent with Some p => resolve_method p n ps onl v | None => None end in
  let inherited :=
    if is_designtime v then None
    else match base with Some b => resolve_method b n ps true v | None => None end in
  let met := fun onl : bool => orelse me (orelse inherited (up onl)) in
  match k with
  | KSym => None
  | KMet => met only
  | KObj =>
      let r1 := met true in
      let r2 := match base with
                | Some b =>
                    if is_obj b then
                      let tmp := resolve_method b n ps only (at_least_protected v) in
                      match r1 with
                      | None => tmp
                      | Some _ => match tmp with
                                  | Some t => if m_final t then tmp else r1
                                  | None => r1
                                  end
                      end
                    else r1
                | None => r1
                end in
      match r2 with
      | Some m => if m_final m then r2
                  else if only then r2 else orelse (met false) r2
      | None => if only then None else met false
      end
  end.

(** SymbolScope::define, Scope.cpp:33-45; MethodScope::define, 177-189 (looks at
    the local symbols only). std::map::insert does not overwrite. *)
Definition map_insert (t : gmap str decl) (n : str) (d : decl) : gmap str decl :=
  match t !! n with Some _ => t | None => <[n := d]> t end.
Definition define (s : scope) (n : str) (d : decl) : res scope :=
  let 'Scope k sy ex ms em base parent := s in
  let dup := match k with
             | KSym => bool_decide (is_Some (resolve s n true Designtime))
             | _ => bool_decide (is_Some (sy !! n))
             end in
  if dup then Throw "DuplicateIdentifier"
  else Ok (Scope k (map_insert sy n d) ex ms em base parent).

(** defineExternal, Scope.cpp:47-60, 191-204. *)
Definition define_external (s : scope) (n : str) (d : decl) : res scope :=
  let 'Scope k sy ex ms em base parent := s in
  if bool_decide (is_Some (ex !! n)) then Throw "DuplicateIdentifier"
  else Ok (Scope k sy (map_insert ex n d) ms em base parent).

(** undefine, Scope.cpp:138-144, 403-409. *)
Definition undefine (s : scope) (n : str) : scope :=
  let 'Scope k sy ex ms em base parent := s in Scope k (delete n sy) ex ms em base parent.

(** std::set<Method*>::insert: sorted by address, no duplicates. *)
Fixpoint ptr_insert (ms : list method) (m : method) : list method :=
  match ms with
  | [] => [m]
  | x :: ms' =>
      if (m_ptr m <? m_ptr x)%N then m :: x :: ms'
      else if (m_ptr x <? m_ptr m)%N then x :: ptr_insert ms' m
      else x :: ms'
  end.

(** MethodScope::defineMethod, Scope.cpp:215-226 (qualified call: always
    MethodScope::resolveMethod, default visibility Designtime, so only the own
    collections are searched). [name] is method->getName() at every call site. *)
Definition define_method (s : scope) (m : method) : res scope :=
  let 'Scope k sy ex ms em base parent := s in
  match orelse (find_overload ms (m_name m) (m_sig m) Designtime)
               (find_overload em (m_name m) (m_sig m) Designtime) with
  | Some _ => Throw "DuplicateIdentifier"
  | None => Ok (Scope k sy ex (ptr_insert ms m) em base parent)
  end.

(** Declarations of a program in one scope. *)
Inductive sop := ODefine (n : str) (d : decl) | OExternal (n : str) (d : decl) | OUndefine (n : str).
Definition sstep (s : scope) (o : sop) : scope :=
  match o with
  | ODefine n d => match define s n d with Ok s' => s' | _ => s end
  | OExternal n d => match define_external s n d with Ok s' => s' | _ => s end
  | OUndefine n => undefine s n
  end.
Definition srun (s : scope) (os : list sop) : scope := fold_left sstep os s.
Definition mrun_defs (s : scope) (l : list method) : scope :=
  fold_left (fun s m => match define_method s m with Ok s' => s' | _ => s end) l s.
