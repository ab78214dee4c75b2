(** Model of inheritance: the set of ancestors, method definition in a type, preparing the inheritance of all types,
    creating objects and the instance-of test.
    Code: /repo/Projects/Core/Core/Designtime/Ancestor.cpp, Ancestor.h,
          /repo/Projects/Core/Core/Designtime/BluePrintObject.cpp,
          /repo/Projects/Core/Core/Designtime/Analyser.cpp (createBluePrint),
          /repo/Projects/Core/Core/VirtualMachine/Repository.cpp (createUserType, createInstance, initializeBlueprints),
          /repo/Projects/Core/Core/Object.cpp (isInstanceOf, isAbstract). *)
From Verif Require Import Base Text_Model Tok_Model Scope_Model Proto_Model.

(** ** Ancestors *)
(** Ancestor::Type, Ancestor.h:28-35. *)
Inductive anc_type := AUnknown | AExtends | AHidden | AImplements | AReplicates.
Definition anc_num (t : anc_type) : nat :=
  match t with AUnknown => 0 | AExtends => 1 | AHidden => 2 | AImplements => 3 | AReplicates => 4 end.
(** Ancestor, Ancestor.h:54-57. *)
Record ancestor := Anc { a_type : anc_type; a_name : str; a_cons : list constraint; a_vis : visibility }.

(** Ancestor::operator<, Ancestor.cpp:30-45. *)
Definition anc_less (a b : ancestor) : bool :=
  if (anc_num (a_type a) =? anc_num (a_type b))%nat then
    if str_eqb (a_name a) (a_name b) then
      if (vis_num (a_vis a) =? vis_num (a_vis b))%nat then cons_eqb (a_cons a) (a_cons b)
      else (vis_num (a_vis a) <? vis_num (a_vis b))%nat
    else str_ltb (a_name a) (a_name b)
  else (anc_num (a_type a) <? anc_num (a_type b))%nat.

(** std::set<Ancestor>::insert (Ancestors, Ancestor.h:60): the place is in front of the first element greater than
    the new one; the new one is added if the element before that place is less than it.
    Simplification: the library searches a balanced tree; where the comparison is no order, its result may depend
    on the shape of the tree, and the model searches from the left. *)
Fixpoint anc_insert_at (prev : option ancestor) (k : ancestor) (l : list ancestor) : list ancestor :=
  let new := match prev with None => true | Some p => anc_less p k end in
  match l with
  | [] => if new then [k] else []
  | x :: l' => if anc_less k x then if new then k :: l else l else x :: anc_insert_at (Some x) k l'
  end.
Definition anc_insert (l : list ancestor) (k : ancestor) : list ancestor := anc_insert_at None k l.

(** BluePrintObject::addInheritance, BluePrintObject.cpp:80-87. *)
Definition add_inheritance (l : list ancestor) (k : ancestor) : res (list ancestor) :=
  match a_name k with [] => Throw "Exception" | _ => Ok (anc_insert l k) end.

Definition is_extends (a : ancestor) : bool := match a_type a with AExtends => true | _ => false end.

(** The inheritance a declared object gets, Analyser.cpp:138 and 155-175: the collected ancestors (a set),
    added one by one, and [Object] if nothing is extended. [implemented]: the object has a body. *)
Fixpoint add_all (l : list ancestor) (ks : list ancestor) : res (list ancestor) :=
  match ks with [] => Ok l | k :: ks' => let! l' := add_inheritance l k in add_all l' ks' end.
Definition object_ancestor : ancestor := Anc AExtends object_name [] Public.
Definition declared_inheritance (implemented : bool) (declared : list ancestor) : res (list ancestor) :=
  let! l := add_all [] (fold_left anc_insert declared []) in
  if implemented && negb (existsb is_extends l) then add_inheritance l object_ancestor else Ok l.

(** ** Types *)
(** MemoryLayout, Common/Attributes/Types.h:92-104; MethodType, 107-115. *)
Inductive layout := LUnspecified | LAbstract | LFinal | LOverride | LStatic | LVirtual.
Inductive mkind := MConstructor | MDestructor | MMethod.
(** A method of a type: what name look-up sees, and its attributes. [bm_ret] is the name of the return type,
    [bm_retconst] its constness, [bm_const] the method's own. *)
Record bmethod := BMethod {
  bm : method; bm_layout : layout; bm_kind : mkind; bm_ret : str; bm_retconst : bool; bm_const : bool }.

(** BluePrintObject: qualified name, inheritance, own symbols (name, visibility) and methods, those taken over from the
    parents, whether preparing is done or skipped (atomic types and prototypes, Repository.cpp:532-539), and the type's
    visibility. *)
Record bp := BP {
  b_name : str; b_inh : list ancestor;
  b_syms : list (str * visibility); b_meths : list bmethod;
  b_esyms : list (str * visibility); b_emeths : list bmethod;
  b_prepared : bool; b_skip : bool; b_vis : visibility }.

(** MethodScope::resolveMethod at visibility Designtime in the type only, Scope.cpp:360-401: own methods, then those of
    the parents. *)
Definition accepts (name : str) (sig : list param) (m : bmethod) : bool :=
  str_eqb (m_name (bm m)) name && is_signature_valid (bm m) sig.
Definition find_method (l : list bmethod) (name : str) (sig : list param) : option bmethod := find (accepts name sig) l.

Definition is_abstract (m : bmethod) : bool := match bm_layout m with LAbstract => true | _ => false end.
Definition is_virtual (m : bmethod) : bool := match bm_layout m with LVirtual => true | _ => false end.
Definition is_final (m : bmethod) : bool := match bm_layout m with LFinal => true | _ => false end.
Definition is_static (m : bmethod) : bool := match bm_layout m with LStatic => true | _ => false end.
Definition is_override (m : bmethod) : bool := match bm_layout m with LOverride => true | _ => false end.
Definition is_method (m : bmethod) : bool := match bm_kind m with MMethod => true | _ => false end.

(** The comparisons of BluePrintObject::defineMethod, BluePrintObject.cpp:94-117. *)
Definition override_check (old new : bmethod) : res unit :=
  if negb (is_abstract old) && negb (is_virtual old) then Throw "SyntaxError"
  else if is_method new && negb (is_abstract new) && negb (is_override new) then Throw "SyntaxError"
  else if negb (Bool.eqb (bm_retconst old) (bm_retconst new)) then Throw "SyntaxError"
  else if negb (Bool.eqb (bm_const old) (bm_const new)) then Throw "SyntaxError"
  else if is_final old then Throw "SyntaxError"
  else if is_static old then Throw "SyntaxError"
  else if negb (str_eqb (bm_ret old) (bm_ret new)) then Throw "SyntaxError"
  else Ok tt.

(** MethodCollection is a std::set of addresses. *)
Fixpoint meth_insert (l : list bmethod) (m : bmethod) : list bmethod :=
  match l with
  | [] => [m]
  | x :: l' =>
      if (m_ptr (bm m) <? m_ptr (bm x))%N then m :: l
      else if (m_ptr (bm x) <? m_ptr (bm m))%N then x :: meth_insert l' m
      else l
  end.
Definition meth_erase (l : list bmethod) (m : bmethod) : list bmethod :=
  List.filter (fun x => negb (m_ptr (bm x) =? m_ptr (bm m))%N) l.
Definition sym_erase (l : list (str * visibility)) (n : str) : list (str * visibility) :=
  List.filter (fun s => negb (str_eqb (fst s) n)) l.

(** MethodScope::defineMethod, Scope.cpp:215-226. *)
Definition scope_define (b : bp) (m : bmethod) : res bp :=
  match find_method (b_meths b ++ b_emeths b) (m_name (bm m)) (m_sig (bm m)) with
  | Some _ => Throw "DuplicateIdentifier"
  | None => Ok (BP (b_name b) (b_inh b) (b_syms b) (meth_insert (b_meths b) m) (b_esyms b) (b_emeths b) (b_prepared b) (b_skip b) (b_vis b))
  end.

(** BluePrintObject::defineMethod, BluePrintObject.cpp:89-129. The replaced method is deleted; if it is a parent's, the
    list of the parents' methods keeps a dangling pointer that scope_define would read. undefineMethod
    (Scope.cpp:411-421) also removes a symbol of the same name. *)
Definition define_method (b : bp) (m : bmethod) : res bp :=
  match find_method (b_meths b) (m_name (bm m)) (m_sig (bm m)) with
  | Some old =>
      let! _ := override_check old m in
      scope_define (BP (b_name b) (b_inh b) (sym_erase (b_syms b) (m_name (bm old))) (meth_erase (b_meths b) old)
                      (b_esyms b) (b_emeths b) (b_prepared b) (b_skip b) (b_vis b)) m
  | None =>
      match find_method (b_emeths b) (m_name (bm m)) (m_sig (bm m)) with
      | Some old => let! _ := override_check old m in UB
      | None => scope_define b m
      end
  end.
(** The methods of a type's body, in order (Analyser::createMethodStub, Analyser.cpp:463-541). *)
Fixpoint define_methods (b : bp) (ms : list bmethod) : res bp :=
  match ms with [] => Ok b | m :: ms' => let! b' := define_method b m in define_methods b' ms' end.

(** ** Preparing the inheritance *)
(** mBluePrintObjects by qualified name; [w_log] records, for the properties only, the order in which types become
    prepared. *)
Record world := World { w_types : gmap str bp; w_log : list str }.

(** The name under which an ancestor is looked up, Repository.cpp:434-439. Simplification: instances of prototypes that
    are inherited from exist already (Repository.cpp:486-490 creates missing ones), and types that replicate
    another one are treated as if they did not. *)
Definition parent_name (a : ancestor) : str := run_name (a_name a) (a_cons a).

(** BluePrintObject::inheritsFrom, BluePrintObject.cpp:248-257. *)
Definition inherits_from (b : bp) (t : str) : bool := existsb (fun a => str_eqb (a_name a) t) (b_inh b).

(** defineExternal for the parent's symbols, BluePrintObject.cpp:356-361, Scope.cpp:191-204. *)
Fixpoint take_symbols (es : list (str * visibility)) (l : list (str * visibility)) : res (list (str * visibility)) :=
  match l with
  | [] => Ok es
  | s :: l' =>
      if vis_geb (snd s) Protected then
        if existsb (fun e => str_eqb (fst e) (fst s)) es then Throw "DuplicateIdentifier" else take_symbols (es ++ [s]) l'
      else take_symbols es l'
  end.
(** ... and its methods, BluePrintObject.cpp:363-369, Scope.cpp:206-213. *)
Definition take_methods (es l : list bmethod) : list bmethod :=
  fold_left (fun es m => if vis_geb (m_vis (bm m)) Protected then meth_insert es m else es) l es.

(** Taking over what parent [p] offers into type [t]. *)
Definition take_over (w : world) (t p : str) : res world :=
  match w_types w !! t, w_types w !! p with
  | Some b, Some pb =>
      let! es := take_symbols (b_esyms b) (b_syms pb) in
      Ok (World (<[t := BP (b_name b) (b_inh b) (b_syms b) (b_meths b) es (take_methods (b_emeths b) (b_meths pb))
                           (b_prepared b) (b_skip b) (b_vis b)]> (w_types w)) (w_log w))
  | _, _ => UB
  end.
Definition mark_prepared (w : world) (t : str) : res world :=
  match w_types w !! t with
  | Some b => Ok (World (<[t := BP (b_name b) (b_inh b) (b_syms b) (b_meths b) (b_esyms b) (b_emeths b) true (b_skip b) (b_vis b)]> (w_types w))
                        (w_log w ++ [t]))
  | None => UB
  end.

(** The loop of BluePrintObject::prepareParents, BluePrintObject.cpp:340-370, with the recursive call as parameter. *)
Fixpoint prepare_loop (rec : world -> str -> res world) (t : str) (l : list ancestor) (w : world) : res world :=
  match l with
  | [] => Ok w
  | a :: l' =>
      match w_types w !! parent_name a with
      | None => Throw "UnknownIdentifier"
      | Some p =>
          if inherits_from p t then Throw "DesigntimeException"
          else
            let! w1 := if b_prepared p then Ok w else rec w (parent_name a) in
            let! w2 := take_over w1 t (parent_name a) in
            prepare_loop rec t l' w2
      end
  end.
(** BluePrintObject::prepareParents, BluePrintObject.cpp:314-373. The bound on the depth stands for the stack. *)
Fixpoint prepare (n : nat) (w : world) (t : str) : res world :=
  match n with
  | O => Fuel
  | S n' =>
      match w_types w !! t with
      | None => UB
      | Some b => let! w1 := prepare_loop (prepare n') t (b_inh b) w in mark_prepared w1 t
      end
  end.
(** The first pass of Repository::initializeBlueprints, Repository.cpp:478-514: each extended type becomes the symbol
    [base] (Scope.cpp:178-189). *)
Definition base_name : str := $"base".
Fixpoint define_base (w : gmap str bp) (t : str) (l : list ancestor) : res (gmap str bp) :=
  match l with
  | [] => Ok w
  | a :: l' =>
      match w !! parent_name a, w !! t with
      | Some p, Some b =>
          match a_type a with
          | AExtends =>
              if existsb (fun s => str_eqb (fst s) base_name) (b_syms b) then Throw "DuplicateIdentifier"
              else define_base (<[t := BP (b_name b) (b_inh b) (b_syms b ++ [(base_name, b_vis p)]) (b_meths b) (b_esyms b) (b_emeths b)
                                          (b_prepared b) (b_skip b) (b_vis b)]> w) t l'
          | AUnknown => Throw "Exception"
          | _ => define_base w t l'
          end
      | _, _ => Throw "UnknownIdentifier"
      end
  end.
Fixpoint define_bases (w : gmap str bp) (ts : list str) : res (gmap str bp) :=
  match ts with
  | [] => Ok w
  | t :: ts' =>
      match w !! t with
      | None => UB
      | Some b => let! w1 := define_base w t (b_inh b) in define_bases w1 ts'
      end
  end.
(** Repository::initializeBlueprints and initBluePrintObject, Repository.cpp:516-519, 532-602, the part about
    inheritance: all types in the order of their names. *)
Fixpoint prepare_all (n : nat) (w : world) (ts : list str) : res world :=
  match ts with
  | [] => Ok w
  | t :: ts' =>
      match w_types w !! t with
      | None => UB
      | Some b => let! w1 := if b_skip b || b_prepared b then Ok w else prepare n w t in prepare_all n w1 ts'
      end
  end.

Definition initialize_blueprints (n : nat) (w : gmap str bp) (ts : list str) : res world :=
  let! w1 := define_bases w ts in prepare_all n (World w1 []) ts.

(** ** Objects *)
(** Runtime::Object: its qualified type name and the objects of its inheritance (Object.h). *)
Inductive robj := RObj (ty : str) (inh : list robj).

(** Repository::createUserType, Repository.cpp:270-315, for initialisation AllowAbstract or Final: the ancestors' objects;
    [names] are the symbols defined so far ("base" and "__name__"). The object of an implemented interface is created
    with initialisation None, that is without ancestors of its own. *)
Fixpoint create_loop (rec : str -> res robj) (w : gmap str bp) (l : list ancestor) (names : list str) : res (list robj) :=
  match l with
  | [] => Ok []
  | a :: l' =>
      match w !! a_name a with
      | None => Throw "Exception"
      | Some _ =>
          match a_type a with
          | AExtends =>
              let! o := rec (parent_name a) in
              if existsb (str_eqb base_name) names then Throw "DuplicateIdentifier"
              else let! os := create_loop rec w l' (base_name :: names) in Ok (o :: os)
          | AImplements =>
              let name := $"__" ++ a_name a ++ $"__" in
              if existsb (str_eqb name) names then Throw "DuplicateIdentifier"
              else let! os := create_loop rec w l' (name :: names) in Ok (RObj (parent_name a) [] :: os)
          | AHidden | AReplicates => create_loop rec w l' names
          | AUnknown => Throw "Exception"
          end
      end
  end.
(** createInstance/createObject/createUserType at level AllowAbstract, Repository.cpp:116-175, 178-240, 270-315.
    Simplification: members and methods of the object are not modelled here. *)
Fixpoint create (n : nat) (w : gmap str bp) (t : str) : res robj :=
  match n with
  | O => Fuel
  | S n' =>
      match w !! t with
      | None => Throw "Exception"
      | Some b => let! os := create_loop (create n' w) w (b_inh b) [] in Ok (RObj t os)
      end
  end.
(** Object::isAbstract, Object.cpp:298-311: the object's own methods (static ones are not copied into it,
    Repository.cpp:357-360). Simplification: an object is never marked as interface, because nothing sets the kind of
    a runtime object. *)
Definition abstract_object (b : bp) : bool := existsb (fun m => is_abstract m && negb (is_static m)) (b_meths b).
(** createInstance at level Final ([new]), Repository.cpp:153-159. *)
Definition new_object (n : nat) (w : gmap str bp) (t : str) : res robj :=
  let! o := create n w t in
  match w !! t with
  | Some b => if abstract_object b then Throw "AbstractException" else Ok o
  | None => Throw "Exception"
  end.

(** Object::isInstanceOf, Object.cpp:323-340. *)
Fixpoint instance_of (o : robj) (t : str) : bool :=
  let 'RObj ty inh := o in
  match t with
  | [] => false
  | _ => if str_eqb ty t then true else existsb (fun o' => instance_of o' t) inh
  end.

(** The test of a prototype's arguments against its bounds, Repository.cpp:66-79. *)
Definition bound_ok (w : gmap str bp) (c : constraint) : res unit :=
  match w !! c_run c with
  | None => Throw "UnknownIdentifier"
  | Some b =>
      match c_bound c with
      | [] => Ok tt
      | bound => if str_eqb (b_name b) bound || inherits_from b bound then Ok tt else Throw "TypeMismatch"
      end
  end.
