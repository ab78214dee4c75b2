(** Model of objects: their creation, members, methods and inheritance, from the names of the source to the run.
    Code: /repo/Projects/Core/Core/AST/TreeGenerator.cpp (resolve, resolveWithThis, resolveWithExceptions, resolveMethod,
          processPostfixScopeOperator), AST/TreeInterpreter.cpp (evaluateSymbolExpression, evaluateMethodExpression,
          evaluateNewExpression, evaluateScopeExpression, execute, initialize, resolveRValue, resolveMethod, visitAssignment,
          visitTypeDeclaration, visitReturn, visitIf, visitWhile, visitBreak, visitContinue), Object.cpp (assign, operator=, Constructor, resolve, resolveMethod),
          Scope.cpp (MethodScope::resolve, resolveMethod), VirtualMachine/Repository.cpp (createReference, createUserType),
          Designtime/Analyser.cpp (default constructor).
    Left out here: overloads with the same number of arguments (methods are told apart by name and number of arguments; the
    types are checked behind that), default arguments (C69), the operators objects may declare, casts to and from numbers
    (C26), the members of numbers (Integer and so on), the 'base' of a type that extends nothing (a sub-object of Object
    without members), constants (C64), interfaces and abstract methods (C36, C60), final methods, static members,
    prototypes, deletion of objects (C01-C04), exceptions (an exception ends the run), global variables. *)
From Verif Require Import Base.

Definition w_this : str := $"this".
Definition w_base : str := $"base".
Definition w_new : str := $"Constructor".
(** The type of null, and what every type without a base extends (Analyser.cpp:172-175). *)
Definition w_object : str := $"Object".

(** Visibility::E, Common/Visibility.h:19-24; Designtime = 0. *)
Inductive vis := Private | Protected | Public.
Definition rank (v : vis) : nat := match v with Private => 1 | Protected => 2 | Public => 3 end.
Definition seen (need : nat) (v : vis) : bool := need <=? rank v.

Inductive ty := TInt | TBool | TObj (c : str).
Global Instance ty_eq_dec : EqDecision ty.
Proof. solve_decision. Defined.

(** Expressions. [XPath] is a chain of names (SymbolExpression), [XCall] the same with a method at its end (MethodExpression);
    [XDot] and [XDotCall] are such a chain behind another expression (ScopeExpression); [XCast] is 'C e' for a type C
    (TypecastExpression, process_identifier, TreeGenerator.cpp:1389-1402). *)
Inductive expr :=
| XInt (z : Z)
| XNull
| XPath (p : list str)
| XCall (p : list str) (args : list expr)
| XNew (c : str) (args : list expr)
| XAdd (a b : expr)
| XLess (a b : expr)
| XDot (a : expr) (p : list str)
| XDotCall (a : expr) (p : list str) (args : list expr)
| XCast (c : str) (e : expr).
(** [SSkip] is a missing else part; the body of a loop is a block, and so are the parts of a try statement: what is tried and,
    for some classes and the name of a variable, what is done when such an exception comes. There is at least one catch part
    with a class; parts without a class, finally and rethrowing are C31. *)
Inductive stmt :=
| SDecl (t : ty) (x : str) (e : expr)
| SAssign (p : list str) (e : expr)
| SPrint (e : expr)
| SExpr (e : expr)
| SReturn (e : option expr)
| SIf (e : expr) (a b : stmt)
| SBlock (l : list stmt)
| SWhile (e : expr) (l : list stmt)
| SBreak
| SContinue
| SThrow (e : expr)
| STry (a : stmt) (ks : list (str * str * stmt))
| SSkip.

Record field := Field { f_vis : vis; f_ty : ty; f_name : str }.
Record meth := Meth { m_vis : vis; m_ret : option ty; m_name : str; m_params : list (ty * str); m_body : list stmt }.
Record cls := Cls { c_name : str; c_base : option str; c_fields : list field; c_methods : list meth }.
Record prog := Prog { p_classes : list cls; p_funcs : list meth }.

Definition get {A} (n : str) (l : list (str * A)) : option A := option_map snd (find (fun q => str_eqb (fst q) n) l).
Fixpoint put {A} (n : str) (v : A) (l : list (str * A)) : list (str * A) :=
  match l with [] => [] | q :: r => if str_eqb (fst q) n then (fst q, v) :: r else q :: put n v r end.

(** Repository::findBluePrintObject, Repository.cpp:386-395. *)
Definition class_of (P : prog) (c : str) : option cls := find (fun k => str_eqb (c_name k) c) (p_classes P).
(** Members and methods of a scope that are visible enough, Scope.cpp:301-327 and 362-376. *)
Definition own_field (k : cls) (need : nat) (n : str) : option field := find (fun f => str_eqb (f_name f) n && seen need (f_vis f)) (c_fields k).
Definition own_name (k : cls) (need : nat) (n : str) : bool := existsb (fun m => str_eqb (m_name m) n && seen need (m_vis m)) (c_methods k).
Definition is_method (m : str) (i : nat) (need : nat) (q : meth) : bool := str_eqb (m_name q) m && (length (m_params q) =? i) && seen need (m_vis q).
Definition own_method (k : cls) (need : nat) (m : str) (i : nat) : option meth := find (is_method m i need) (c_methods k).
Definition func (P : prog) (m : str) (i : nat) : option meth := find (is_method m i 1) (p_funcs P).

(** The default constructor of an object without constructors, Analyser.cpp:204-219. *)
Definition complete (k : cls) : cls :=
  if own_name k 1 w_new then k else Cls (c_name k) (c_base k) (c_fields k) (c_methods k ++ [Meth Public None w_new [] []]).

(** ** The generator *)

(** What a name stands for at design time. *)
Inductive ssym := YVal (t : ty) | YMeth.
(** MethodScope::resolve on a blueprint with onlyCurrentScope, Scope.cpp:299-358: own symbols, those of the parent that
    prepareParents made known (BluePrintObject.cpp:354-369), own methods, those of the parent, then the base. The bound
    stands for the depth of the inheritance. *)
Fixpoint bp_resolve (P : prog) (f : nat) (c : str) (n : str) (need : nat) : option ssym :=
  match f with
  | O => None
  | S f =>
      match class_of P c with
      | None => None
      | Some k =>
          let parent := match c_base k with Some b => class_of P b | None => None end in
          match own_field k need n with
          | Some x => Some (YVal (f_ty x))
          | None =>
              match (if str_eqb n w_base then c_base k else None) with
              | Some b => Some (YVal (TObj b))
              | None =>
                  match (match parent with Some b => own_field b (Nat.max need 2) n | None => None end) with
                  | Some x => Some (YVal (f_ty x))
                  | None =>
                      if own_name k need n || match parent with Some b => own_name b (Nat.max need 2) n | None => false end then Some YMeth
                      else match c_base k with Some b => bp_resolve P f b n need | None => None end
                  end
              end
          end
      end
  end.
(** MethodScope::resolveMethod on a blueprint with onlyCurrentScope, Scope.cpp:360-401. *)
Fixpoint bp_method (P : prog) (f : nat) (c : str) (m : str) (i : nat) : option meth :=
  match f with
  | O => None
  | S f =>
      match class_of P c with
      | None => None
      | Some k => match own_method k 1 m i with Some q => Some q | None => match c_base k with Some b => bp_method P f b m i | None => None end end
      end
  end.
Definition depth (P : prog) : nat := S (length (p_classes P)).

(** A resolved chain of names: a value, or a method of a class (of the current scope). *)
Inductive sres := RVal (t : ty) | RMeth (c : option str) (m : str).
(** The outcome of following a chain: what it stands for, or the names that are left where it got lost. *)
Inductive hunt := Found (s : sres) | Lost (p : list str).
(** TreeGenerator::resolve within a type, TreeGenerator.cpp:2284-2382. [D] is the class of the method (mThis): behind a member
    of that type everything is visible (2365-2368). The token iterator is a reference: it stays where the chain got lost. *)
Fixpoint rest (P : prog) (D : option str) (c : str) (need : nat) (p : list str) : res hunt :=
  match p with
  | [] => Ok (Lost [])
  | n :: r =>
      match bp_resolve P (depth P) c n need with
      | None => Ok (Lost p)
      | Some YMeth => match r with [] => Ok (Found (RMeth (Some c) n)) | _ => Throw "invalid base scope" end
      | Some (YVal t) =>
          match r with
          | [] => Ok (Found (RVal t))
          | _ => match t with
                 | TObj c' => rest P D c' (if str_eqb n w_base then 2 else if str_eqb n w_this then 1 else if bool_decide (D = Some c') then 1 else need) r
                 | _ => Throw "invalid base scope"
                 end
          end
      end
  end.
Definition senv := list (list (str * ty)).
Fixpoint slook (G : senv) (n : str) : option ty := match G with [] => None | b :: G => match get n b with Some t => Some t | None => slook G n end end.
(** The names of the method itself: its locals, 'this', then what its object and the global scope know. *)
Definition head (P : prog) (D : option str) (G : senv) (n : str) : option ssym :=
  match slook G n with
  | Some t => Some (YVal t)
  | None =>
      match D with
      | Some c => if str_eqb n w_this then Some (YVal (TObj c)) else
                    match bp_resolve P (depth P) c n 1 with
                    | Some s => Some s
                    | None => if existsb (fun q => str_eqb (m_name q) n) (p_funcs P) then Some YMeth else None
                    end
      | None => if existsb (fun q => str_eqb (m_name q) n) (p_funcs P) then Some YMeth else None
      end
  end.
(** resolveWithExceptions, TreeGenerator.cpp:2455-2463. The members of a local of the own type are all visible (2365-2368). *)
Definition plain (P : prog) (D : option str) (G : senv) (p : list str) : res sres :=
  match p with
  | [] => Throw "invalid symbol"
  | n :: r =>
      match head P D G n with
      | None => Throw "invalid symbol"
      | Some YMeth => match r with [] => Ok (RMeth None n) | _ => Throw "invalid base scope" end
      | Some (YVal t) =>
          match r with
          | [] => Ok (RVal t)
          | _ =>
              match t with
              | TObj c =>
                  let need := if str_eqb n w_base then 2 else if str_eqb n w_this then 1 else if bool_decide (D = Some c) then 1 else 3 in
                  let! s := rest P D c need r in match s with Found s => Ok s | Lost _ => Throw "invalid symbol" end
              | _ => Throw "invalid base scope"
              end
          end
      end
  end.
(** resolveWithThis, TreeGenerator.cpp:2465-2481: what the own object knows comes first; if the chain gets lost on the way, only
    the names that are left are looked up again. *)
Definition name_of (P : prog) (D : option str) (G : senv) (p : list str) : res (list str * sres) :=
  let! a := match D with Some c => rest P D c 1 p | None => Ok (Lost p) end in
  match a with
  | Found s => Ok (w_this :: p, s)
  | Lost q => let! s := plain P D G q in Ok (q, s)
  end.
(** ** Type checks *)
Definition type_ok (P : prog) (t : ty) : bool :=
  match t with TObj c => str_eqb c w_object || match class_of P c with Some _ => true | None => false end | _ => true end.
(** The type directly above a class. *)
Definition above (P : prog) (c : str) : option str :=
  match class_of P c with Some k => Some (default w_object (c_base k)) | None => None end.
(** What a variable of type [t] can be initialised with (process_type, TreeGenerator.cpp:2098-2163): TypeSystem.cpp:94-105 and
    510-520 for the numbers, Repository.cpp:726-747 for objects: the own type and the types directly below. *)
Definition can_init (P : prog) (t : ty) (u : option ty) : bool :=
  match t, u with
  | TInt, Some TInt | TInt, Some TBool | TBool, Some TInt | TBool, Some TBool => true
  | TObj c, Some (TObj d) => str_eqb c d || bool_decide (above P d = Some c)
  | _, _ => false
  end.
(** What can be assigned to it later (process_assignment_expression, TreeGenerator.cpp:1018-1034): an object of another type
    only by an 'operator=' of its type. *)
Definition can_assign (t : ty) (u : option ty) : bool :=
  match t, u with
  | TInt, Some TInt | TInt, Some TBool | TBool, Some TInt | TBool, Some TBool => true
  | TObj c, Some (TObj d) => str_eqb c d
  | _, _ => false
  end.
(** Method::isSignatureValid, Common/Method.cpp:236-286: the very types of the parameters. *)
Definition takes_args (q : meth) (us : list (option ty)) : bool := bool_decide (us = map (fun p => Some (fst p)) (m_params q)).

(** resolveMethod, TreeGenerator.cpp:2384-2410: the method a call means, by which its type is known. *)
Definition picked (P : prog) (D : option str) (s : sres) (i : nat) : option meth :=
  match s with
  | RVal _ => None
  | RMeth (Some c) m => bp_method P (depth P) c m i
  | RMeth None m =>
      match (match D with Some c => bp_method P (depth P) c m i | None => None end) with Some q => Some q | None => func P m i end
  end.
Definition called (P : prog) (D : option str) (s : sres) (us : list (option ty)) : res (option ty) :=
  match picked P D s (length us) with
  | Some q => if takes_args q us then Ok (m_ret q) else Throw "unknown method"
  | None => Throw "unknown method"
  end.
Definition each {A B} (f : A -> res B) : list A -> res (list B) :=
  fix go l := match l with [] => Ok [] | a :: l => let! b := f a in let! r := go l in Ok (b :: r) end.

(** The trees have the shape of the source; only the names are completed. *)
Fixpoint elab (P : prog) (D : option str) (G : senv) (e : expr) : res (expr * option ty) :=
  match e with
  | XInt z => Ok (XInt z, Some TInt)
  | XNull => Ok (XNull, Some (TObj w_object))
  | XPath p =>
      let! s := name_of P D G p in
      match snd s with RVal t => Ok (XPath (fst s), Some t) | RMeth _ _ => Throw "method used as value" end
  | XCall p args =>
      let! s := name_of P D G p in
      let! l := each (elab P D G) args in
      let! t := called P D (snd s) (map snd l) in
      Ok (XCall (fst s) (map fst l), t)
  | XNew c args =>
      let! l := each (elab P D G) args in
      match bp_method P (depth P) c w_new (length args) with
      | Some q => if takes_args q (map snd l) then Ok (XNew c (map fst l), Some (TObj c)) else Throw "unknown method"
      | None => Throw "unknown method"
      end
  | XAdd a b =>
      (* TypeSystem.cpp:521-525 and 596-600 *)
      let! x := elab P D G a in let! y := elab P D G b in
      if bool_decide (snd x = Some TInt /\ snd y = Some TInt) then Ok (XAdd (fst x) (fst y), Some TInt) else Throw "TypeMismatch"
  | XLess a b =>
      let! x := elab P D G a in let! y := elab P D G b in
      if bool_decide (snd x = Some TInt /\ snd y = Some TInt) then Ok (XLess (fst x) (fst y), Some TBool) else Throw "TypeMismatch"
  | XDot a p =>
      (* processPostfixScopeOperator, 816-862 *)
      let! x := elab P D G a in
      match snd x with
      | Some (TObj c) =>
          let! s := rest P D c 3 p in
          match s with Found (RVal t) => Ok (XDot (fst x) p, Some t) | _ => Throw "invalid symbol" end
      | _ => Throw "invalid type"
      end
  | XDotCall a p args =>
      let! x := elab P D G a in
      match snd x with
      | Some (TObj c) =>
          let! s := rest P D c 3 p in
          match s with
          | Found s =>
              let! l := each (elab P D G) args in
              let! t := called P D s (map snd l) in
              Ok (XDotCall (fst x) p (map fst l), t)
          | Lost _ => Throw "invalid symbol"
          end
      | _ => Throw "invalid type"
      end
  | XCast c a =>
      (* nothing is checked; only casts of objects are modelled *)
      if type_ok P (TObj c) then
        let! x := elab P D G a in
        match snd x with Some (TObj _) => Ok (XCast c (fst x), Some (TObj c)) | _ => Throw "cast of a number" end
      else Throw "invalid symbol"
  end.
(** Statements with the types of the local variables. The parameters and the variables of the body are in one scope here (a
    variable with the name of a parameter is refused; see C68). *)
Fixpoint elab_stmt (P : prog) (D : option str) (R : option ty) (G : senv) (s : stmt) : res (stmt * senv) :=
  match s with
  | SDecl t x e =>
      match G with
      | [] => Throw "no scope"
      | b :: G' =>
          match get x b with
          | Some _ => Throw "duplicate identifier"
          | None =>
              if type_ok P t then
                let! y := elab P D (((x, t) :: b) :: G') e in
                if can_init P t (snd y) then Ok (SDecl t x (fst y), ((x, t) :: b) :: G') else Throw "TypeMismatch"
              else Throw "invalid symbol"
          end
      end
  | SAssign p e =>
      let! q := name_of P D G p in
      match snd q with
      | RVal t => let! y := elab P D G e in if can_assign t (snd y) then Ok (SAssign (fst q) (fst y), G) else Throw "TypeMismatch"
      | RMeth _ _ => Throw "method used as value"
      end
  | SPrint e => let! y := elab P D G e in Ok (SPrint (fst y), G)
  | SExpr e => let! y := elab P D G e in Ok (SExpr (fst y), G)
  | SReturn None => if bool_decide (R = None) then Ok (SReturn None, G) else Throw "TypeMismatch"   (* process_return, 1749-1773 *)
  | SReturn (Some e) => let! y := elab P D G e in if bool_decide (snd y = R) then Ok (SReturn (Some (fst y)), G) else Throw "TypeMismatch"
  | SIf e a b =>
      (* process_if, 1449-1476: no scope of its own *)
      let! y := elab P D G e in
      let! x := elab_stmt P D R G a in
      let! z := elab_stmt P D R (snd x) b in
      Ok (SIf (fst y) (fst x) (fst z), snd z)
  | SBlock l =>
      let! r := (fix go G l := match l with
                  | [] => Ok ([], G)
                  | s :: l => let! x := elab_stmt P D R G s in let! y := go (snd x) l in Ok (fst x :: fst y, snd y)
                  end) ([] :: G) l in
      Ok (SBlock (fst r), G)
  | SWhile e l =>
      (* process_while, 2217-2234 *)
      let! y := elab P D G e in
      let! r := (fix go G l := match l with
                  | [] => Ok ([], G)
                  | s :: l => let! x := elab_stmt P D R G s in let! y := go (snd x) l in Ok (fst x :: fst y, snd y)
                  end) ([] :: G) l in
      Ok (SWhile (fst y) (fst r), G)
  | SThrow e =>
      (* process_throw, 1969-1988. (Every method is taken to be marked with 'throws'; see C35.) *)
      let! y := elab P D G e in Ok (SThrow (fst y), G)
  | STry a ks =>
      (* process_try, 1996-2089: the variable of a catch part is in a scope of its own *)
      let! x := elab_stmt P D R G a in
      let! r := (fix go ks := match ks with
                  | [] => Ok []
                  | k :: ks =>
                      if type_ok P (TObj (fst (fst k))) then
                        let! y := elab_stmt P D R ([(snd (fst k), TObj (fst (fst k)))] :: G) (snd k) in
                        let! z := go ks in Ok ((fst k, fst y) :: z)
                      else Throw "invalid symbol"
                  end) ks in
      Ok (STry (fst x) r, G)
  | SBreak => Ok (SBreak, G)
  | SContinue => Ok (SContinue, G)
  | SSkip => Ok (SSkip, G)
  end.
Fixpoint elab_list (P : prog) (D : option str) (R : option ty) (G : senv) (l : list stmt) : res (list stmt * senv) :=
  match l with
  | [] => Ok ([], G)
  | s :: l => let! x := elab_stmt P D R G s in let! y := elab_list P D R (snd x) l in Ok (fst x :: fst y, snd y)
  end.
(** mControlFlow, set by the last control statement that was read; a block starts with Normal (generate, 128-131). [allow] is
    allowBreakAndContinue of the scope (pushScope, 2236-2245; process_break, 1041-1055; process_continue, 1101-1115). [None] is
    the error. A throw is as good as a return. See C33 and C34 for this check on all statements. *)
Inductive mark := MNormal | MLoop | MReturn.
Fixpoint control (allow : bool) (s : stmt) (g : mark) : option mark :=
  let all := fix all (allow : bool) (l : list stmt) (g : mark) := match l with [] => Some g | s :: l => match control allow s g with Some g => all allow l g | None => None end end in
  match s with
  | SBreak | SContinue => if allow then Some MLoop else None
  | SReturn _ => Some MReturn
  | SIf _ a b => match control allow a g with Some g => control allow b g | None => None end
  | SBlock l => all allow l MNormal
  | SWhile _ l => all true l MNormal
  | SThrow _ => Some MReturn
  | STry a ks =>
      match control allow a g with
      | Some g => (fix go g (ks : list (str * str * stmt)) := match ks with [] => Some g | k :: ks => match control allow (snd k) g with Some g => go g ks | None => None end end) g ks
      | None => None
      end
  | SDecl _ _ _ | SAssign _ _ | SPrint _ | SExpr _ | SSkip => Some g
  end.
(** A method with a value must leave the generator in the flow of a return: finalize, 83-123. *)
Definition controlled (m : meth) : bool :=
  match control false (SBlock (m_body m)) MNormal with
  | Some MReturn => true
  | Some _ => bool_decide (m_ret m = None)
  | None => false
  end.
(** initialize and generateAST, TreeGenerator.cpp:121-250. *)
Definition elab_method (P : prog) (D : option str) (m : meth) : res meth :=
  if negb (controlled m) then Throw "ControlFlowException" else
  let! r := elab_list P D (m_ret m) [map (fun q => (snd q, fst q)) (m_params m)] (m_body m) in
  Ok (Meth (m_vis m) (m_ret m) (m_name m) (m_params m) (fst r)).
Definition elab_class (P : prog) (k : cls) : res cls :=
  let! l := each (elab_method P (Some (c_name k))) (c_methods k) in Ok (Cls (c_name k) (c_base k) (c_fields k) l).
Definition load (P : prog) : res prog :=
  let P1 := Prog (map complete (p_classes P)) (p_funcs P) in
  let! ks := each (elab_class P1) (p_classes P1) in
  let! fs := each (elab_method P1 None) (p_funcs P1) in
  Ok (Prog ks fs).

(** ** The run *)

(** A place in an object: its address and one of its layers, 0 for the most derived type. *)
Definition ptr := (nat * nat)%type.
(** mParent of an object that stands for a variable and refers to nothing: the scope names are looked up in, Scope.cpp:353. *)
Inductive par := PNone | PGlobal | PLayer (q : ptr).
(** What a variable or temporary holds. A null keeps the name of a type (mQualifiedTypename), that of the variable it comes
    from. *)
Inductive value := VInt (z : Z) | VBool (b : bool) | VObj (a : nat) | VNull (p : par) (t : str) | VVoid.

(** An object on the heap: one layer for its type and for each base, Repository.cpp:268-366. The sub-object of a base has no
    address (createReference with AllowAbstract, 249-261). *)
Record layer := Layer { l_cls : cls; l_fields : list (str * value) }.
Definition obj := list layer.
Record state := State { s_heap : list obj; s_out : list Z }.

(** The start value of a member, Repository.cpp:339-352: its parent is the object it belongs to. *)
Definition start_value (q : ptr) (t : ty) : value := match t with TInt => VInt 0 | TBool => VBool false | TObj c => VNull (PLayer q) c end.
(** createUserType, Repository.cpp:268-366. *)
Fixpoint create (P : prog) (f : nat) (a i : nat) (c : str) : res obj :=
  match f with
  | O => Fuel
  | S f =>
      match class_of P c with
      | None => Throw "cannot create instance of unknown type"
      | Some k =>
          let! base := match c_base k with None => Ok [] | Some b => create P f a (S i) b end in
          Ok (Layer k (map (fun x => (f_name x, start_value (a, i) (f_ty x))) (c_fields k)) :: base)
      end
  end.

(** What a name stands for in a layer. *)
Inductive sym := SymField | SymMeth | SymBase.
Definition own_sym (l : layer) (has_base : bool) (need : nat) (n : str) : option sym :=
  match own_field (l_cls l) need n with
  | Some _ => Some SymField
  | None => if str_eqb n w_base && has_base then Some SymBase else if own_name (l_cls l) need n then Some SymMeth else None
  end.
Definition more (ls : obj) : bool := match ls with [] => false | _ => true end.
Definition shift {A} (r : option (nat * A)) : option (nat * A) := match r with Some (i, x) => Some (S i, x) | None => None end.
(** Object::resolve, Object.cpp:485-508, with MethodScope::resolve, Scope.cpp:299-358, on the layers from some layer on.
    Without global variables the outer scopes know no values. *)
Fixpoint obj_resolve (ls : obj) (only : bool) (need : nat) (n : str) : option (nat * sym) :=
  match ls with
  | [] => None
  | l :: r =>
      match own_sym l (more r) need n with
      | Some s => Some (0, s)
      | None =>
          match (if need =? 0 then None else shift (obj_resolve r true need n)) with
          | Some x => Some x
          | None => if only then None else shift (obj_resolve r false (Nat.max need 2) n)
          end
      end
  end.
(** Object::resolveMethod, Object.cpp:510-541, with MethodScope::resolveMethod, Scope.cpp:360-401. *)
Inductive target := InLayer (i : nat) (m : meth) | InGlobal (m : meth).
Definition up (r : option target) : option target := match r with Some (InLayer i m) => Some (InLayer (S i) m) | x => x end.
Definition global (P : prog) (m : str) (i : nat) : option target := match func P m i with Some q => Some (InGlobal q) | None => None end.
Fixpoint obj_method (P : prog) (ls : obj) (only : bool) (need : nat) (m : str) (i : nat) : option target :=
  match ls with
  | [] => None
  | l :: r =>
      let here :=
        match own_method (l_cls l) need m i with
        | Some q => Some (InLayer 0 q)
        | None => if need =? 0 then None else up (obj_method P r true need m i)
        end in
      let below := match here with Some t => Some t | None => up (obj_method P r only (Nat.max need 2) m i) end in
      if only then below
      else match (match here with Some t => Some t | None => global P m i end) with Some t => Some t | None => below end
  end.

(** A method that runs: its local variables, innermost first, 'this', and the object its method belongs to. *)
Record frame := Frame { fr_vars : list (list (str * value)); fr_this : option ptr; fr_home : option ptr }.
(** The current scope: the frame, or an object pushed by evaluateScopeExpression. *)
Inductive scope := InFrame | InValue (v : value).

(** A symbol that has been found: a variable, a member, or a whole object ('this', 'base'). *)
Inductive found := FVar (n : str) | FMember (q : ptr) (n : str) | FSelf (q : ptr) | FMeth.
Definition layers (h : list obj) (q : ptr) : obj := drop (snd q) (default [] (h !! fst q)).
Definition at_layer (q : ptr) (n : str) (r : nat * sym) : found :=
  match snd r with
  | SymField => FMember (fst q, snd q + fst r) n
  | SymMeth => FMeth
  | SymBase => FSelf (fst q, snd q + S (fst r))
  end.
Definition in_layer (h : list obj) (q : ptr) (only : bool) (need : nat) (n : str) : option found :=
  option_map (at_layer q n) (obj_resolve (layers h q) only need n).
(** Names in an object that stands for a variable: Object::resolve goes to the object it refers to; without one, only its
    parent is left. *)
Definition in_value (h : list obj) (v : value) (only : bool) (need : nat) (n : str) : option found :=
  match v with
  | VObj a => in_layer h (a, 0) only need n
  | VNull (PLayer q) _ => if only then None else in_layer h q false need n
  | _ => None
  end.
Fixpoint vlook (E : list (list (str * value))) (n : str) : option value :=
  match E with [] => None | b :: E => match get n b with Some v => Some v | None => vlook E n end end.
Fixpoint vset (E : list (list (str * value))) (n : str) (v : value) : list (list (str * value)) :=
  match E with [] => [] | b :: E => match get n b with Some _ => put n v b :: E | None => b :: vset E n v end end.
Definition in_frame (h : list obj) (fr : frame) (need : nat) (n : str) : option found :=
  match vlook (fr_vars fr) n with
  | Some _ => Some (FVar n)
  | None =>
      match (if str_eqb n w_this then fr_this fr else None) with
      | Some q => Some (FSelf q)
      | None => match fr_home fr with Some q => in_layer h q false need n | None => None end
      end
  end.
Definition in_scope (h : list obj) (fr : frame) (sc : scope) (need : nat) (n : str) : option found :=
  match sc with InFrame => in_frame h fr need n | InValue v => in_value h v false need n end.

Definition member (h : list obj) (q : ptr) (n : str) : option value :=
  match layers h q with l :: _ => get n (l_fields l) | [] => None end.
Definition content (h : list obj) (fr : frame) (x : found) : option value :=
  match x with
  | FVar n => vlook (fr_vars fr) n
  | FMember q n => member h q n
  | FSelf (a, 0) => Some (VObj a)
  | FSelf (a, S j) =>
      (* the sub-object of a base has no address *)
      match layers h (a, S j) with l :: _ => Some (VNull PGlobal (c_name (l_cls l))) | [] => None end
  | FMeth => None
  end.
(** The next name of a chain. *)
Definition next (h : list obj) (fr : frame) (x : found) (only : bool) (need : nat) (n : str) : option found :=
  match x with
  | FSelf q => in_layer h q only need n
  | FMeth => None
  | _ => match content h fr x with Some v => in_value h v only need n | None => None end
  end.
Fixpoint walk (h : list obj) (fr : frame) (x : found) (only : bool) (need : nat) (p : list str) : option found :=
  match p with
  | [] => Some x
  | n :: r => match next h fr x only need n with Some y => walk h fr y only need r | None => None end
  end.
(** evaluateSymbolExpression, TreeInterpreter.cpp:426-470, and resolveRValue, 856-889: every name with Designtime. *)
Definition find_value (h : list obj) (fr : frame) (sc : scope) (p : list str) : option found :=
  match p with [] => None | n :: r => match in_scope h fr sc 0 n with Some x => walk h fr x false 0 r | None => None end end.
(** resolveMethod, TreeInterpreter.cpp:892-934: the first name anywhere, the following ones within the object, the method
    from there on. A method on its own is looked up in the enclosing object or the global scope (evaluateMethodExpression,
    285-288). *)
Definition method_in (P : prog) (h : list obj) (q : ptr) (m : str) (i : nat) : option (option ptr * meth) :=
  match obj_method P (layers h q) false 1 m i with
  | Some (InLayer j d) => Some (Some (fst q, snd q + j), d)
  | Some (InGlobal d) => Some (None, d)
  | None => None
  end.
Definition method_of (P : prog) (h : list obj) (v : value) (m : str) (i : nat) : option (option ptr * meth) :=
  match v with
  | VObj a => method_in P h (a, 0) m i
  | VNull (PLayer q) _ => method_in P h q m i
  | VNull PGlobal _ => match func P m i with Some d => Some (None, d) | None => None end
  | _ => None
  end.
Definition method_at (P : prog) (h : list obj) (fr : frame) (x : found) (m : str) (i : nat) : option (option ptr * meth) :=
  match x with
  | FSelf q => method_in P h q m i
  | FMeth => None
  | _ => match content h fr x with Some v => method_of P h v m i | None => None end
  end.
Definition split_last (p : list str) : option (list str * str) := match rev p with [] => None | m :: r => Some (rev r, m) end.
Definition find_method (P : prog) (h : list obj) (fr : frame) (sc : scope) (p : list str) (i : nat) : option (option ptr * meth) :=
  match split_last p with
  | None => None
  | Some ([], m) =>
      match sc with
      | InFrame => match fr_home fr with
                   | Some q => method_in P h q m i
                   | None => match func P m i with Some d => Some (None, d) | None => None end
                   end
      | InValue v => method_of P h v m i
      end
  | Some (n :: r, m) =>
      match in_scope h fr sc 1 n with
      | Some x => match walk h fr x true 1 r with Some y => method_at P h fr y m i | None => None end
      | None => None
      end
  end.

(** QualifiedTypename of a variable or temporary: every assignment replaces it, Object.cpp:104. *)
Definition type_name (h : list obj) (v : value) : str :=
  match v with
  | VInt _ => $"int" | VBool _ => $"bool" | VVoid => $"void" | VNull _ t => t
  | VObj a => match h !! a with Some (l :: _) => c_name (l_cls l) | _ => [] end
  end.
(** Object::isInstanceOf, Object.cpp:323-340. *)
Definition is_instance (o : obj) (t : str) : bool := existsb (fun l => str_eqb (c_name (l_cls l)) t) o || str_eqb t w_object.
(** operator_binary_assign, Runtime/OperatorOverloading.cpp:30-99, with Object::assign, Object.cpp:87-115: the value a variable
    has behind an assignment. A null that comes without a parent leaves the one the variable had. The names of the types are
    compared with what the variable holds, not with its declaration. (Numbers given to objects and the other way round are
    refused here; the generator does so.) *)
Definition assigned (h : list obj) (old new : value) : option value :=
  match old, new with
  | VInt _, VInt z => Some (VInt z)
  | VInt _, VBool b => Some (VInt (if b then 1 else 0))
  | VBool _, VBool b => Some (VBool b)
  | VBool _, VInt z => Some (VBool (negb (z =? 0)%Z))
  | VNull p _, VNull PNone t => Some (VNull p t)
  | VObj _, VNull PNone t => Some (VNull PGlobal t)
  | VNull _ _, VNull p t | VObj _, VNull p t => Some (VNull p t)
  | VNull _ _, VObj a | VObj _, VObj a => if is_instance (default [] (h !! a)) (type_name h old) then Some (VObj a) else None
  | _, _ => None
  end.
(** initialize, TreeInterpreter.cpp:686-715: the value of a parameter; nothing is compared here. *)
Definition passed (t : ty) (v : value) : value := match v, t with VNull _ _, TObj c => VNull PGlobal c | VNull _ u, _ => VNull PGlobal u | v, _ => v end.
Fixpoint pass (ps : list (ty * str)) (vs : list value) : list (str * value) :=
  match ps, vs with p :: ps, v :: vs => (snd p, passed (fst p) v) :: pass ps vs | _, _ => [] end.

Definition set_member (h : list obj) (q : ptr) (n : str) (v : value) : list obj :=
  match h !! fst q with
  | None => h
  | Some o => <[fst q := match o !! snd q with
                         | Some l => <[snd q := Layer (l_cls l) (put n v (l_fields l))]> o
                         | None => o
                         end]> h
  end.
Definition store (st : state) (fr : frame) (x : found) (v : value) : res (state * frame) :=
  match x with
  | FVar n => match vlook (fr_vars fr) n with
              | Some old =>
                  match assigned (s_heap st) old v with
                  | Some w => Ok (st, Frame (vset (fr_vars fr) n w) (fr_this fr) (fr_home fr))
                  | None => Throw "InvalidOperation"
                  end
              | None => Throw "AccessViolation"
              end
  | FMember q n => match member (s_heap st) q n with
                   | Some old =>
                       match assigned (s_heap st) old v with
                       | Some w => Ok (State (set_member (s_heap st) q n w) (s_out st), fr)
                       | None => Throw "InvalidOperation"
                       end
                   | None => Throw "AccessViolation"
                   end
  | _ => Throw "AccessViolation"
  end.

(** isTrue, Runtime/Utils.cpp:17-24. *)
Definition is_true (v : value) : bool := match v with VInt z => negb (z =? 0)%Z | VBool b => b | VObj _ => true | _ => false end.
Definition in_range (z : Z) : bool := ((-2147483648 <=? z) && (z <=? 2147483647))%Z.

(** The flow behind a statement: on, out of a loop, to its next turn, a return with the value that is kept in the frame, or an
    exception with the value that is kept in the thread. *)
Inductive flow := Go | Brk | Cont | Ret (v : value) | Thr (v : value).
(** An expression ends with a value, or with the C++ exception ControlFlow::Throw (evaluateMethodExpression, 320-327). *)
Inductive outcome (A : Type) := Val (a : A) | Exn (v : value) (st : state).
Arguments Val {A} a.
Arguments Exn {A} v st.
Definition obind {A B} (r : res (outcome A)) (k : A -> res (outcome B)) : res (outcome B) :=
  match r with Ok (Val a) => k a | Ok (Exn v st) => Ok (Exn v st) | Throw e => Throw e | UB => UB | Fuel => Fuel end.
Notation "'let?' x := r 'in' k" := (obind r (fun x => k)) (at level 200, x name, right associativity).
(** tryControl and tryEvaluateReturnNull, TreeInterpreter.cpp:37-66: statements turn it into their flow. *)
Definition try_control {A} (r : res (outcome A)) (fr : frame) (k : A -> res (flow * frame * state)) : res (flow * frame * state) :=
  match r with Ok (Val a) => k a | Ok (Exn v st) => Ok (Thr v, fr, st) | Throw e => Throw e | UB => UB | Fuel => Fuel end.
(** isInstanceOf as visitTry asks it, TreeInterpreter.cpp:1333. *)
Definition caught (h : list obj) (v : value) (c : str) : bool := match v with VObj a => is_instance (default [] (h !! a)) c | _ => false end.

Fixpoint eval (n : nat) (P : prog) (fr : frame) (sc : scope) (e : expr) (st : state) {struct n} : res (outcome (value * state)) :=
  match n with
  | O => Fuel
  | S n =>
      match e with
      | XInt z => Ok (Val (VInt z, st))
      | XNull => Ok (Val (VNull PNone w_object, st))
      | XPath p =>
          match find_value (s_heap st) fr sc p with
          | None => Throw "NullPointerException"
          | Some x => match content (s_heap st) fr x with Some v => Ok (Val (v, st)) | None => Throw "invalid lvalue symbol type" end
          end
      | XCall p args =>
          (* evaluateMethodExpression, 268-328: the arguments in the current scope, then the method *)
          let? l := eval_list n P fr sc args st in
          match find_method P (s_heap (snd l)) fr sc p (length args) with
          | None => Throw "NullPointerException"
          | Some d => call n P (fst d) (fst d) (snd d) (fst l) (snd l)
          end
      | XNew c args =>
          (* evaluateNewExpression, 330-355; Object::Constructor, Object.cpp:158-192. A constructor that is left by return stops
             the caller (C29), and one that throws only does so when the expression is done; these cases are not followed here. *)
          let? l := eval_list n P fr sc args st in
          let a := length (s_heap (snd l)) in
          let! o := create P (depth P) a 0 c in
          let st1 := State (s_heap (snd l) ++ [o]) (s_out (snd l)) in
          match obj_method P o true 2 w_new (length args) with
          | Some (InLayer j d) =>
              let! r := body n P (Some (a, 0)) (Some (a, j)) d (fst l) st1 in
              match fst r with Go => Ok (Val (VObj a, snd r)) | _ => Throw "return in a constructor" end
          | _ => Throw "no appropriate constructor found"
          end
      | XAdd a b =>
          let? x := eval n P fr sc a st in
          let? y := eval n P fr sc b (snd x) in
          match fst x, fst y with
          | VInt i, VInt j => if in_range (i + j) then Ok (Val (VInt (i + j), snd y)) else UB
          | _, _ => Throw "InvalidOperation"
          end
      | XLess a b =>
          let? x := eval n P fr sc a st in
          let? y := eval n P fr sc b (snd x) in
          match fst x, fst y with
          | VInt i, VInt j => Ok (Val (VBool (i <? j)%Z, snd y))
          | _, _ => Throw "InvalidOperation"
          end
      | XDot a p =>
          (* evaluateScopeExpression, 357-370 *)
          let? x := eval n P fr sc a st in eval n P fr (InValue (fst x)) (XPath p) (snd x)
      | XDotCall a p args =>
          (* an exception of the call goes past popScope, 367: the scope of the frame is then an object that is gone; that case is
             not followed here *)
          let? x := eval n P fr sc a st in
          match eval n P fr (InValue (fst x)) (XCall p args) (snd x) with Ok (Exn _ _) => Throw "scope left behind" | r => r end
      | XCast c a =>
          (* evaluateTypeCastExpression, 494-503; typecast, Runtime/TypeCast.cpp:29-103: the name of the type outside is replaced,
             by which methods are chosen among overloads; the object stays what it is *)
          eval n P fr sc a st
      end
  end
with eval_list (n : nat) (P : prog) (fr : frame) (sc : scope) (l : list expr) (st : state) {struct n} : res (outcome (list value * state)) :=
  match n with
  | O => Fuel
  | S n =>
      match l with
      | [] => Ok (Val ([], st))
      | e :: l =>
          let? x := eval n P fr sc e st in
          let? r := eval_list n P fr sc l (snd x) in
          Ok (Val (fst x :: fst r, snd r))
      end
  end
with body (n : nat) (P : prog) (this home : option ptr) (m : meth) (args : list value) (st : state) {struct n} : res (flow * state) :=
  (* execute, 571-610; initialize, 686-715 *)
  match n with
  | O => Fuel
  | S n =>
      let fr := Frame [pass (m_params m) args] this home in
      let! r := exec_list n P fr (m_body m) st in
      Ok (fst (fst r), snd r)
  end
with call (n : nat) (P : prog) (this home : option ptr) (m : meth) (args : list value) (st : state) {struct n} : res (outcome (value * state)) :=
  match n with
  | O => Fuel
  | S n =>
      let! r := body n P this home m args st in
      match fst r with Thr v => Ok (Exn v (snd r)) | Ret v => Ok (Val (v, snd r)) | _ => Ok (Val (VVoid, snd r)) end
  end
with exec (n : nat) (P : prog) (fr : frame) (s : stmt) (st : state) {struct n} : res (flow * frame * state) :=
  match n with
  | O => Fuel
  | S n =>
      match s with
      | SDecl t x e =>
          (* visitTypeDeclaration, 1384-1402: the variable is there before its value is *)
          match fr_vars fr with
          | [] => Throw "no scope"
          | b :: E =>
              match get x b with
              | Some _ => Throw "DuplicateIdentifier"
              | None =>
                  let fresh := match t with TInt => VInt 0 | TBool => VBool false | TObj c => VNull PGlobal c end in
                  let fr1 := Frame (((x, fresh) :: b) :: E) (fr_this fr) (fr_home fr) in
                  try_control (eval n P fr1 InFrame e st) fr1 (fun v =>
                  match assigned (s_heap (snd v)) fresh (fst v) with
                  | Some w => Ok (Go, Frame (((x, w) :: b) :: E) (fr_this fr) (fr_home fr), snd v)
                  | None => Throw "InvalidOperation"
                  end)
              end
          end
      | SAssign p e =>
          (* visitAssignment, 972-982: the place first *)
          match find_value (s_heap st) fr InFrame p with
          | None => Throw "AccessViolation"
          | Some x =>
              try_control (eval n P fr InFrame e st) fr (fun v =>
              let! q := store (snd v) fr x (fst v) in Ok (Go, snd q, fst q))
          end
      | SPrint e =>
          try_control (eval n P fr InFrame e st) fr (fun v =>
          match fst v with
          | VInt z => Ok (Go, fr, State (s_heap (snd v)) (s_out (snd v) ++ [z]))
          | _ => Throw "only numbers are printed here"
          end)
      | SExpr e => try_control (eval n P fr InFrame e st) fr (fun v => Ok (Go, fr, snd v))
      | SReturn None => Ok (Ret VVoid, fr, st)
      | SReturn (Some e) => try_control (eval n P fr InFrame e st) fr (fun v => Ok (Ret (fst v), fr, snd v))
      | SIf e a b => try_control (eval n P fr InFrame e st) fr (fun v => exec n P fr (if is_true (fst v) then a else b) (snd v))
      | SBlock l =>
          (* visitStatements, 1241-1251 *)
          let! r := exec_list n P (Frame ([] :: fr_vars fr) (fr_this fr) (fr_home fr)) l st in
          Ok (fst (fst r), Frame (tail (fr_vars (snd (fst r)))) (fr_this fr) (fr_home fr), snd r)
      | SWhile e l =>
          (* visitWhile, 1409-1435 *)
          try_control (eval n P fr InFrame e st) fr (fun v =>
          if is_true (fst v) then
            let! r := exec n P fr (SBlock l) (snd v) in
            match fst (fst r) with
            | Brk => Ok (Go, snd (fst r), snd r)
            | Ret _ | Thr _ => Ok r
            | Go | Cont => exec n P (snd (fst r)) (SWhile e l) (snd r)
            end
          else Ok (Go, fr, snd v))
      | SThrow e =>
          (* visitThrow, 1298-1313 *)
          try_control (eval n P fr InFrame e st) fr (fun v =>
          match fst v with VObj _ => Ok (Thr (fst v), fr, snd v) | _ => Throw "only objects are thrown here" end)
      | STry a ks =>
          (* visitTry, 1315-1382: the variable as in visitTypeDeclaration. (A chain of names or a method that is not found raises
             a string; those runs end here.) *)
          let! r := exec n P fr a st in
          match fst (fst r) with
          | Thr v =>
              match find (fun k => caught (s_heap (snd r)) v (fst (fst k))) ks with
              | Some k =>
                  match assigned (s_heap (snd r)) (VNull PGlobal (fst (fst k))) v with
                  | Some w =>
                      let fr1 := snd (fst r) in
                      let! q := exec n P (Frame ([(snd (fst k), w)] :: fr_vars fr1) (fr_this fr1) (fr_home fr1)) (snd k) (snd r) in
                      Ok (fst (fst q), Frame (tail (fr_vars (snd (fst q)))) (fr_this fr1) (fr_home fr1), snd q)
                  | None => Throw "InvalidOperation"
                  end
              | None => Ok r
              end
          | _ => Ok r
          end
      | SBreak => Ok (Brk, fr, st)
      | SContinue => Ok (Cont, fr, st)
      | SSkip => Ok (Go, fr, st)
      end
  end
with exec_list (n : nat) (P : prog) (fr : frame) (l : list stmt) (st : state) {struct n} : res (flow * frame * state) :=
  match n with
  | O => Fuel
  | S n =>
      match l with
      | [] => Ok (Go, fr, st)
      | s :: l =>
          let! r := exec n P fr s st in
          match fst (fst r) with Go => exec_list n P (snd (fst r)) l (snd r) | _ => Ok r end
      end
  end.

(** A program is loaded, then its function main runs. *)
Definition run (n : nat) (P : prog) : res (list Z) :=
  let! L := load P in
  match func L ($"main") 0 with
  | None => Throw "could not resolve main"
  | Some m =>
      let! r := call n L None None m [] (State [] []) in
      match r with Val x => Ok (s_out (snd x)) | Exn _ _ => Throw "uncaught exception" end
  end.
