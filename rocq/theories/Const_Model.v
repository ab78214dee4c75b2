(** Model of const correctness: the checks the tree generator makes at design time, and what the accepted code does to
    variables and objects when the tree interpreter runs it.
    Code: /repo/Projects/Core/Core/AST/TreeGenerator.cpp (resolve, resolveWithThis, process_assignment_expression,
    process_incdecrement, process_method, process_type, process_var, process_new, process_return), AST/Expression.h
    (SymbolExpression, MethodExpression, AssignmentExpression), AST/TreeInterpreter.cpp (evaluate, visit, execute,
    initialize), Object.cpp (operator=, assign, setValue, getValue, Constructor), Designtime/Analyser.cpp (createMemberStub,
    createMethodStub).
    Simplifications: classes without ancestors, prototypes, static members or overloads; one atomic type, whose numbers do
    not wrap around; no exceptions, loops other than while, or break and continue; arguments are never left out. *)
From Verif Require Import Base.
Open Scope Z_scope.

(** Types of variables: the atomic type, or a class. *)
Inductive ty := TInt | TCls (c : str).
#[global] Instance ty_eq_dec : EqDecision ty. Proof. solve_decision. Defined.

(** Expressions. A path is a list of names with dots between them. [ECall]'s last name is the method. [EInc] is ++ (with 1)
    and -- (with -1) after a symbol, where process_identifier makes it an lvalue, TreeGenerator.cpp:1437-1439. *)
Inductive expr :=
| EInt (z : Z)
| EPath (p : list str)
| EAdd (a b : expr)
| EAssign (p : list str) (e : expr)
| EInc (p : list str) (d : Z)
| ECall (p : list str) (args : list expr)
| ENew (t : ty) (args : list expr).

Inductive stmt :=
| SExpr (e : expr)
| SDecl (t : ty) (n : str) (c : bool) (e : option expr)
| SVar (n : str) (c : bool) (e : expr)
| SIf (e : expr) (a b : list stmt)
| SWhile (e : expr) (b : list stmt)
| SReturn (e : option expr).

(** Parameter.h: name, type, const or modify, and whether it is written with ref (mAccessMode; without ref or val it is
    Unspecified, Parser.cpp:485-486). *)
Record param := Par { p_name : str; p_ty : ty; p_const : bool; p_ref : bool }.
(** MethodType. *)
Inductive mkind := KMethod | KConstructor | KDestructor.
#[global] Instance mkind_eq_dec : EqDecision mkind. Proof. solve_decision. Defined.
(** Common::Method: [m_const] is isConstMethod, [m_ret_const] isConst (of the returned value); void is [None]. *)
Record meth := Meth { m_name : str; m_kind : mkind; m_const : bool; m_ret : option ty; m_ret_const : bool;
                      m_params : list param; m_body : list stmt }.
(** Member of a class: createMemberStub, Analyser.cpp:404-461. *)
Record member := Mem { b_name : str; b_ty : ty; b_const : bool }.
Record cls := Cls { c_name : str; c_members : list member; c_methods : list meth }.
Definition prog := list cls.

Definition same (a b : str) : bool := bool_decide (a = b).
Definition find_class (P : prog) (c : str) : option cls := List.find (fun k => same (c_name k) c) P.
Definition find_member (k : cls) (n : str) : option member := List.find (fun m => same (b_name m) n) (c_members k).
Definition find_method (k : cls) (n : str) : option meth := List.find (fun m => same (m_name m) n) (c_methods k).

(** ** Design time *)

(** A symbol of the generator's scopes: TreeGenerator::initialize, 209-247, and process_type, 2123-2126. The scope of the
    parameters and the scope of the body are one list here; [e_param] marks what was defined in the former. *)
Record entry := Ent { e_ty : ty; e_const : bool; e_param : bool }.
Definition scopes := list (list (str * entry)).

Definition assoc {A} (n : str) (l : list (str * A)) : option A :=
  match List.find (fun q => same (fst q) n) l with Some q => Some (snd q) | None => None end.
Fixpoint lookup_all {A} (n : str) (G : list (list (str * A))) : option A :=
  match G with
  | [] => None
  | s :: r => match assoc n s with Some e => Some e | None => lookup_all n r end
  end.

(** One part of a SymbolExpression, Expression.h:395-545; [t_meth] for the symbol of a method. *)
Record part := Part { t_name : str; t_const : bool; t_member : bool; t_ty : option ty; t_meth : option (str * meth) }.

(** resolve, 2284-2379, behind the first name: members are BluePrintObject symbols (Analyser.cpp:431-445), which become a
    DesigntimeSymbolExpression, neither const nor member (2321, Expression.h:474-481). *)
Fixpoint parts_in (P : prog) (k : cls) (p : list str) : option (list part) :=
  match p with
  | [] => Some []
  | n :: r =>
      match find_member k n with
      | Some m =>
          match r with
          | [] => Some [Part n false false (Some (b_ty m)) None]
          | _ =>
              match b_ty m with
              | TInt => None
              | TCls c =>
                  match find_class P c with
                  | Some k' =>
                      match parts_in P k' r with
                      | Some ps => Some (Part n false false (Some (b_ty m)) None :: ps)
                      | None => None
                      end
                  | None => None
                  end
              end
          end
      | None =>
          match find_method k n with
          | Some m => match r with [] => Some [Part n false false (m_ret m) (Some (c_name k, m))] | _ => None end
          | None => None
          end
      end
  end.

Definition str_this : str := $"this".

(** resolve, 2284-2379, for the first name found among the symbols of the method: a variable is a runtime object and keeps
    its constness (2334-2350); 'this' is the blueprint (229) and is never const. *)
Definition parts_local (P : prog) (G : scopes) (p : list str) : option (list part) :=
  match p with
  | [] => None
  | n :: r =>
      match lookup_all n G with
      | None => None
      | Some e =>
          match r with
          | [] => Some [Part n (e_const e) false (Some (e_ty e)) None]
          | _ =>
              match e_ty e with
              | TInt => None
              | TCls c =>
                  match find_class P c with
                  | Some k =>
                      match parts_in P k r with
                      | Some ps => Some (Part n (e_const e) false (Some (e_ty e)) None :: ps)
                      | None => None
                      end
                  | None => None
                  end
              end
          end
      end
  end.

Definition is_member_name (k : cls) (n : str) : bool :=
  match find_member k n with Some _ => true | None => match find_method k n with Some _ => true | None => false end end.

(** resolveWithThis, 2464-2481: what is found in the class gets a 'this' part in front, const in a const method. *)
Definition resolve_path (P : prog) (k : cls) (m : meth) (G : scopes) (p : list str) : option (list part) :=
  match p with
  | [] => None
  | n :: _ =>
      if is_member_name k n then
        match parts_in P k p with
        | Some ps => Some (Part str_this (m_const m) true (Some (TCls (c_name k))) None :: ps)
        | None => None
        end
      else parts_local P G p
  end.

(** isConst, isInnerConst and isMember of a symbol, Expression.h:425-438. *)
Definition any_const (ps : list part) : bool := existsb t_const ps.
Definition any_member (ps : list part) : bool := existsb t_member ps.
Definition inner_const (ps : list part) : bool := match last ps with Some p => t_const p | None => false end.
Definition path_of (ps : list part) : list str := map t_name ps.

(** What later checks look at: type, isConst, isInnerConst. *)
Record info := Info { i_ty : option ty; i_const : bool; i_inner : bool }.

(** The checks of process_assignment_expression, 1004-1010, and process_incdecrement, 1480-1482. *)
Definition allow_const_modify (m : meth) : bool := negb (bool_decide (m_kind m = KMethod)).
Definition assign_ok (m : meth) (ps : list part) : bool :=
  negb (any_member ps && m_const m)
  && negb (any_const ps && negb (allow_const_modify m && any_member ps)).
Definition inc_ok (m : meth) (ps : list part) : bool :=
  negb (any_const ps && negb (allow_const_modify m && any_member ps)).

(** The checks of process_method: types of the arguments (Method::isSignatureValid), constness of the arguments, 1628-1650,
    and of the called method, 1655-1663. *)
Fixpoint args_ok (ps : list param) (is : list info) : bool :=
  match ps, is with
  | [], [] => true
  | p :: ps', i :: is' =>
      bool_decide (i_ty i = Some (p_ty p)) && negb (p_ref p && (negb (p_const p) && i_const i)) && args_ok ps' is'
  | _, _ => false
  end.
Definition call_ok (k : cls) (m : meth) (ps : list part) (owner : str) (f : meth) : bool :=
  negb (m_const m && same (c_name k) owner && negb (m_const f) && bool_decide (m_kind f = KMethod))
  && negb (any_const ps && negb (m_const f)).

Definition str_constructor : str := $"Constructor".

(** Expressions: the generator checks and builds the tree, in which paths have their 'this' part. *)
Section Gen.
Variable P : prog.
Variable k : cls.
Variable m : meth.
Variable G : scopes.

Fixpoint gen_expr (e : expr) {struct e} : option (expr * info) :=
  let gen_args := fix gen_args (l : list expr) : option (list expr * list info) :=
    match l with
    | [] => Some ([], [])
    | a :: r =>
        match gen_expr a, gen_args r with
        | Some (a', i), Some (r', is) => Some (a' :: r', i :: is)
        | _, _ => None
        end
    end in
  match e with
  | EInt z => Some (EInt z, Info (Some TInt) false false)
  | EPath p =>
      match resolve_path P k m G p with
      | Some ps =>
          match last ps with
          | Some q =>
              match t_meth q with
              | None => Some (EPath (path_of ps), Info (t_ty q) (any_const ps) (inner_const ps))
              | Some _ => None
              end
          | None => None
          end
      | None => None
      end
  | EAdd a b =>
      match gen_expr a, gen_expr b with
      | Some (a', ia), Some (b', ib) =>
          if bool_decide (i_ty ia = Some TInt) && bool_decide (i_ty ib = Some TInt)
          then Some (EAdd a' b', Info (Some TInt) false false) else None
      | _, _ => None
      end
  (* process_assignment_expression, 950-1041; a class may define operator=, which is not modelled *)
  | EAssign p a =>
      match resolve_path P k m G p, gen_expr a with
      | Some ps, Some (a', i) =>
          match last ps with
          | Some q =>
              match t_meth q, t_ty q with
              | None, Some t =>
                  if assign_ok m ps && bool_decide (i_ty i = Some t)
                  then Some (EAssign (path_of ps) a', Info (Some t) (any_const ps) (any_const ps)) else None
              | _, _ => None
              end
          | None => None
          end
      | _, _ => None
      end
  (* process_incdecrement, 1478-1505; a class may define operator++, which is not modelled *)
  | EInc p d =>
      match resolve_path P k m G p with
      | Some ps =>
          match last ps with
          | Some q =>
              match t_meth q with
              | None =>
                  if inc_ok m ps && bool_decide (t_ty q = Some TInt)
                  then Some (EInc (path_of ps) d, Info (Some TInt) false false) else None
              | Some _ => None
              end
          | None => None
          end
      | None => None
      end
  (* process_method, 1602-1680; MethodExpression, Expression.h:650-670 *)
  | ECall p l =>
      match resolve_path P k m G p, gen_args l with
      | Some ps, Some (l', is) =>
          match last ps with
          | Some q =>
              match t_meth q with
              | Some (owner, f) =>
                  if args_ok (m_params f) is && call_ok k m ps owner f
                  then Some (ECall (path_of ps) l', Info (m_ret f) (m_ret_const f || inner_const ps) (m_ret_const f || inner_const ps))
                  else None
              | None => None
              end
          | None => None
          end
      | _, _ => None
      end
  (* process_new, 1686-1723: the constructor is a method that is not reached through a const symbol *)
  | ENew t l =>
      match gen_args l with
      | Some (l', is) =>
          match t with
          | TInt => if args_ok [Par [] TInt false false] is then Some (ENew t l', Info (Some t) false false) else None
          | TCls c =>
              match find_class P c with
              | Some k' =>
                  match find_method k' str_constructor with
                  | Some f =>
                      if args_ok (m_params f) is && bool_decide (m_kind f = KConstructor)
                      then Some (ENew t l', Info (Some t) false false) else None
                  | None => if args_ok [] is then Some (ENew t l', Info (Some t) false false) else None
                  end
              | None => None
              end
          end
      | None => None
      end
  end.

Fixpoint gen_args (l : list expr) : option (list expr * list info) :=
  match l with
  | [] => Some ([], [])
  | a :: r =>
      match gen_expr a, gen_args r with
      | Some (a', i), Some (r', is) => Some (a' :: r', i :: is)
      | _, _ => None
      end
  end.
End Gen.

(** getScope()->define(name, object), which refuses a name of the same scope; parameters are in the scope around. *)
Definition declare (G : scopes) (n : str) (e : entry) : option scopes :=
  match G with
  | [] => None
  | s :: r =>
      match assoc n (filter (fun q => e_param (snd q) = false) s) with
      | Some _ => None
      | None => Some (((n, e) :: s) :: r)
      end
  end.

(** The class a variable may have exists: Repository::createInstance. *)
Definition ty_ok (P : prog) (t : ty) : bool :=
  match t with TInt => true | TCls c => match find_class P c with Some _ => true | None => false end end.

(** Statements. process_type, 2096-2157: the name is defined before its initialisation is looked at; there is no check of
    the initialisation's constness. process_var, 2178-2211: a const value is refused for a variable that can be modified,
    unless it is atomic. process_return, 1751-1772. Blocks open a scope: process_scope, 1776-1782. *)
Section GenStmts.
Variable P : prog.
Variable k : cls.
Variable m : meth.
Fixpoint gen_stmt (G : scopes) (s : stmt) {struct s} : option (stmt * scopes) :=
  let gen_stmts := fix gen_stmts (G : scopes) (l : list stmt) : option (list stmt * scopes) :=
    match l with
    | [] => Some ([], G)
    | a :: r =>
        match gen_stmt G a with
        | Some (a', G1) =>
            match gen_stmts G1 r with Some (r', G2) => Some (a' :: r', G2) | None => None end
        | None => None
        end
    end in
  match s with
  | SExpr e => match gen_expr P k m G e with Some (e', _) => Some (SExpr e', G) | None => None end
  | SDecl t n c e =>
      if ty_ok P t then
        match declare G n (Ent t c false) with
        | Some G1 =>
            match e with
            | None => Some (SDecl t n c None, G1)
            | Some a =>
                match gen_expr P k m G1 a with
                | Some (a', i) => if bool_decide (i_ty i = Some t) then Some (SDecl t n c (Some a'), G1) else None
                | None => None
                end
            end
        | None => None
        end
      else None
  | SVar n c a =>
      match gen_expr P k m G a with
      | Some (a', i) =>
          match i_ty i with
          | Some t =>
              if negb c && i_inner i && negb (bool_decide (t = TInt)) then None
              else match declare G n (Ent t c false) with
                   | Some G1 => Some (SDecl t n c (Some a'), G1)
                   | None => None
                   end
          | None => None
          end
      | None => None
      end
  | SIf e a b =>
      match gen_expr P k m G e, gen_stmts ([] :: G) a, gen_stmts ([] :: G) b with
      | Some (e', i), Some (a', _), Some (b', _) => Some (SIf e' a' b', G)
      | _, _, _ => None
      end
  | SWhile e b =>
      match gen_expr P k m G e, gen_stmts ([] :: G) b with
      | Some (e', i), Some (b', _) => Some (SWhile e' b', G)
      | _, _ => None
      end
  | SReturn None => if bool_decide (m_ret m = None) then Some (SReturn None, G) else None
  | SReturn (Some e) =>
      match gen_expr P k m G e with
      | Some (e', i) => if bool_decide (i_ty i = m_ret m) && negb (bool_decide (m_ret m = None)) then Some (SReturn (Some e'), G) else None
      | None => None
      end
  end.
Fixpoint gen_stmts (G : scopes) (l : list stmt) : option (list stmt * scopes) :=
  match l with
  | [] => Some ([], G)
  | a :: r =>
      match gen_stmt G a with
      | Some (a', G1) => match gen_stmts G1 r with Some (r', G2) => Some (a' :: r', G2) | None => None end
      | None => None
      end
  end.
End GenStmts.

(** initialize, 209-247: 'this' and the parameters; a name given twice is refused. *)
Definition param_entries (ps : list param) : list (str * entry) :=
  map (fun p => (p_name p, Ent (p_ty p) (p_const p) true)) ps.
Definition method_scope (k : cls) (m : meth) : list (str * entry) :=
  rev (param_entries (m_params m)) ++ [(str_this, Ent (TCls (c_name k)) false true)].
Definition gen_method (P : prog) (k : cls) (m : meth) : option (list stmt) :=
  if bool_decide (NoDup (map fst (method_scope k m)) /\ Forall (fun p => ty_ok P (p_ty p) = true) (m_params m)) then
    match gen_stmts P k m [method_scope k m] (m_body m) with
    | Some (b, _) => Some b
    | None => None
    end
  else None.

(** Everything the generator visits is accepted; the types of the members exist. *)
Definition accepted (P : prog) : bool :=
  forallb (fun k => forallb (fun m => match gen_method P k m with Some _ => true | None => false end) (c_methods k)
                    && forallb (fun b => ty_ok P (b_ty b)) (c_members k)) P.

(** ** Run time *)

(** What a Runtime::Object that stands for a variable holds: mValue, mIsReference and mReference, Object.h; with a valid
    reference mThis is the object on the heap. Objects are numbered in the order of their creation; reference counts and
    their end are not modelled here. *)
Record hnd := Hnd { h_val : Z; h_isref : bool; h_ref : option nat }.
(** An object on the heap: its class, its value and its members. *)
Record hobj := HObj { o_ty : ty; o_val : Z; o_mem : list (str * hnd) }.
Definition heap := list hobj.
Definition env := list (list (str * hnd)).
Definition blank : hnd := Hnd 0 false None.

(** Object::getValue, Object.cpp:286-293. *)
Definition get_value (h : heap) (d : hnd) : Z :=
  match h_ref d with
  | Some o => match h !! o with Some x => o_val x | None => 0 end
  | None => h_val d
  end.

Fixpoint set_assoc {A} (n : str) (v : A) (l : list (str * A)) : list (str * A) :=
  match l with
  | [] => []
  | q :: r => if same (fst q) n then (fst q, v) :: r else q :: set_assoc n v r
  end.
Fixpoint set_all {A} (n : str) (v : A) (G : list (list (str * A))) : list (list (str * A)) :=
  match G with
  | [] => []
  | s :: r => match assoc n s with Some _ => set_assoc n v s :: r | None => s :: set_all n v r end
  end.

(** Where an lvalue lives. *)
Inductive loc := LVar (n : str) | LMem (o : nat) (n : str).

(** resolveRValue, TreeInterpreter.cpp:857-889. *)
Fixpoint loc_in (h : heap) (o : nat) (p : list str) : option loc :=
  match p with
  | [] => None
  | n :: r =>
      match h !! o with
      | None => None
      | Some x =>
          match assoc n (o_mem x) with
          | None => None
          | Some d =>
              match r with
              | [] => Some (LMem o n)
              | _ => match h_ref d with Some o' => loc_in h o' r | None => None end
              end
          end
      end
  end.
Definition loc_of (h : heap) (E : env) (p : list str) : option loc :=
  match p with
  | [] => None
  | n :: r =>
      match lookup_all n E with
      | None => None
      | Some d =>
          match r with
          | [] => Some (LVar n)
          | _ => match h_ref d with Some o => loc_in h o r | None => None end
          end
      end
  end.
Definition read_loc (h : heap) (E : env) (l : loc) : option hnd :=
  match l with
  | LVar n => lookup_all n E
  | LMem o n => match h !! o with Some x => assoc n (o_mem x) | None => None end
  end.
Definition write_loc (h : heap) (E : env) (l : loc) (d : hnd) : heap * env :=
  match l with
  | LVar n => (h, set_all n d E)
  | LMem o n =>
      (match h !! o with Some x => <[o := HObj (o_ty x) (o_val x) (set_assoc n d (o_mem x))]> h | None => h end, E)
  end.
Definition set_val (h : heap) (o : nat) (v : Z) : heap :=
  match h !! o with Some x => <[o := HObj (o_ty x) v (o_mem x)]> h | None => h end.

(** Object::assign, Object.cpp:88-115, on a variable that holds [l]: what it holds then, and the heap. *)
Definition assign (h : heap) (l r : hnd) : heap * hnd :=
  if h_isref r then (h, Hnd (h_val l) true (h_ref r))
  else match h_ref l with
       | Some o => (set_val h o (get_value h r), Hnd (h_val l) false (Some o))
       | None => (h, Hnd (get_value h r) false None)
       end.

(** What the scopes of a call hold at the start: initialize, TreeInterpreter.cpp:684-712. *)
Definition pass (h : heap) (d : hnd) : hnd :=
  match h_ref d with
  | Some o => Hnd 0 true (Some o)
  | None => Hnd (get_value h d) false None
  end.
Fixpoint bind_params (h : heap) (ps : list param) (vs : list hnd) (acc : list (str * hnd)) : option (list (str * hnd)) :=
  match ps, vs with
  | [], [] => Some acc
  | p :: ps', v :: vs' => bind_params h ps' vs' ((p_name p, pass h v) :: acc)
  | _, _ => None
  end.

(** Repository::createUserType, Repository.cpp:316-355. *)
Definition new_object (k : cls) : hobj := HObj (TCls (c_name k)) 0 (map (fun m => (b_name m, blank)) (c_members k)).

(** A declared variable before its initialisation: variables of a class are references unless declared otherwise,
    TreeGenerator.cpp:2129 and TreeInterpreter.cpp:1386-1388. Simplification: val and ref are not modelled; what is assigned
    decides (Object.cpp:107). *)
Definition fresh (t : ty) : hnd := match t with TInt => blank | TCls _ => Hnd 0 true None end.

Inductive flow := FNormal | FReturn (d : hnd).

Fixpoint eval (fuel : nat) (P : prog) (h : heap) (E : env) (e : expr) {struct fuel} : res (heap * env * hnd) :=
  match fuel with
  | O => Fuel
  | S fuel' =>
      match e with
      | EInt z => Ok (h, E, Hnd z false None)
      (* evaluateSymbolExpression, 411-455: operator= copies what the variable holds *)
      | EPath p =>
          match loc_of h E p with
          | Some l => match read_loc h E l with Some d => Ok (h, E, d) | None => Throw "NullPointerException" end
          | None => Throw "NullPointerException"
          end
      | EAdd a b =>
          let! x := eval fuel' P h E a in
          let! y := eval fuel' P (fst (fst x)) (snd (fst x)) b in
          Ok (fst (fst y), snd (fst y), Hnd (get_value (fst (fst y)) (snd x) + get_value (fst (fst y)) (snd y)) false None)
      (* evaluateAssignmentExpression, 106-119 *)
      | EAssign p a =>
          match loc_of h E p with
          | None => Throw "AccessViolation"
          | Some l =>
              let! x := eval fuel' P h E a in
              let h1 := fst (fst x) in let E1 := snd (fst x) in
              match read_loc h1 E1 l with
              | None => Throw "AccessViolation"
              | Some d =>
                  let (h2, d') := assign h1 d (snd x) in
                  let (h3, E3) := write_loc h2 E1 l d' in
                  Ok (h3, E3, snd (assign h3 blank d'))
              end
          end
      (* evaluateUnaryExpression, 515-538; operator_unary_increment, OperatorOverloading.cpp:984-1043 *)
      | EInc p d =>
          match loc_of h E p with
          | None => Throw "AccessViolation"
          | Some l =>
              match read_loc h E l with
              | None => Throw "AccessViolation"
              | Some v =>
                  let (h2, v') := assign h v (Hnd (get_value h v + d) false None) in
                  let (h3, E3) := write_loc h2 E l v' in
                  Ok (h3, E3, snd (assign h3 blank v'))
              end
          end
      (* evaluateMethodExpression, 269-320; resolveMethod, 891-933 *)
      | ECall p l =>
          let! x := eval_args fuel' P h E l in
          match rev p with
          | f :: rp =>
              match loc_of (fst (fst x)) (snd (fst x)) (rev rp) with
              | Some lo =>
                  match read_loc (fst (fst x)) (snd (fst x)) lo with
                  | Some d =>
                      match h_ref d with
                      | Some o =>
                          let! y := call fuel' P (fst (fst x)) o f (snd x) in
                          Ok (fst y, snd (fst x), snd y)
                      | None => Throw "NullPointerException"
                      end
                  | None => Throw "NullPointerException"
                  end
              | None => Throw "NullPointerException"
              end
          | [] => Throw "NullPointerException"
          end
      (* evaluateNewExpression, 329-354; Object::Constructor, Object.cpp:157-190 *)
      | ENew t l =>
          let! x := eval_args fuel' P h E l in
          let h1 := fst (fst x) in let E1 := snd (fst x) in
          match t with
          | TInt =>
              match snd x with
              | [d] => Ok (h1 ++ [HObj TInt (get_value h1 d) []], E1, Hnd 0 true (Some (length h1)))
              | _ => Throw "ParameterCountMismatch"
              end
          | TCls c =>
              match find_class P c with
              | None => Throw "Exception"
              | Some k =>
                  let h2 := h1 ++ [new_object k] in
                  match find_method k str_constructor with
                  | None => Ok (h2, E1, Hnd 0 true (Some (length h1)))
                  | Some _ =>
                      let! y := call fuel' P h2 (length h1) str_constructor (snd x) in
                      Ok (fst y, E1, Hnd 0 true (Some (length h1)))
                  end
              end
          end
      end
  end
(** The arguments of a call, from left to right. *)
with eval_args (fuel : nat) (P : prog) (h : heap) (E : env) (l : list expr) {struct fuel} : res (heap * env * list hnd) :=
  match fuel with
  | O => Fuel
  | S fuel' =>
      match l with
      | [] => Ok (h, E, [])
      | a :: r =>
          let! x := eval fuel' P h E a in
          let! y := eval_args fuel' P (fst (fst x)) (snd (fst x)) r in
          Ok (fst (fst y), snd (fst y), snd x :: snd y)
      end
  end
(** TreeInterpreter::execute, 571-609: the tree the generator built for the method is run in a scope of its own. *)
with call (fuel : nat) (P : prog) (h : heap) (o : nat) (f : str) (vs : list hnd) {struct fuel} : res (heap * hnd) :=
  match fuel with
  | O => Fuel
  | S fuel' =>
      match h !! o with
      | None => UB
      | Some x =>
          match o_ty x with
          | TInt => Throw "NullPointerException"
          | TCls c =>
              match find_class P c with
              | None => UB
              | Some k =>
                  match find_method k f with
                  | None => Throw "NullPointerException"
                  | Some m =>
                      match gen_method P k m, bind_params h (m_params m) vs [(str_this, Hnd 0 true (Some o))] with
                      | Some b, Some s =>
                          let! y := exec fuel' P h [s] b in
                          Ok (fst (fst y), match snd y with FReturn d => d | FNormal => blank end)
                      | None, _ => Throw "DesigntimeException"
                      | _, None => Throw "ParameterCountMismatch"
                      end
                  end
              end
          end
      end
  end
with exec (fuel : nat) (P : prog) (h : heap) (E : env) (ss : list stmt) {struct fuel} : res (heap * env * flow) :=
  match fuel with
  | O => Fuel
  | S fuel' =>
      match ss with
      | [] => Ok (h, E, FNormal)
      | s :: r =>
          let! x := exec1 fuel' P h E s in
          match snd x with
          | FNormal => exec fuel' P (fst (fst x)) (snd (fst x)) r
          | FReturn d => Ok (fst (fst x), snd (fst x), FReturn d)
          end
      end
  end
with exec1 (fuel : nat) (P : prog) (h : heap) (E : env) (s : stmt) {struct fuel} : res (heap * env * flow) :=
  match fuel with
  | O => Fuel
  | S fuel' =>
      match s with
      | SExpr e => let! x := eval fuel' P h E e in Ok (fst (fst x), snd (fst x), FNormal)
      (* visitTypeDeclaration, 1384-1402: the body shares the scope of the parameters *)
      | SDecl t n c oe =>
          match E with
          | [] => UB
          | sc :: r =>
              match assoc n sc with
              | Some _ => Throw "DuplicateIdentifier"
              | None =>
                  let E1 := ((n, fresh t) :: sc) :: r in
                  match oe with
                  | None => Ok (h, E1, FNormal)
                  | Some e =>
                      let! x := eval fuel' P h E1 e in
                      match read_loc (fst (fst x)) (snd (fst x)) (LVar n) with
                      | None => UB
                      | Some d =>
                          let (h2, d') := assign (fst (fst x)) d (snd x) in
                          let (h3, E3) := write_loc h2 (snd (fst x)) (LVar n) d' in
                          Ok (h3, E3, FNormal)
                      end
                  end
              end
          end
      (* the generator makes a declaration of it *)
      | SVar n c e => UB
      (* visitIf, 1133-1149; visitStatements, 1241-1251 *)
      | SIf e a b =>
          let! x := eval fuel' P h E e in
          let! y := exec fuel' P (fst (fst x)) ([] :: snd (fst x))
                         (if negb (get_value (fst (fst x)) (snd x) =? 0) then a else b) in
          Ok (fst (fst y), tail (snd (fst y)), snd y)
      (* visitWhile, 1409-1435 *)
      | SWhile e b =>
          let! x := eval fuel' P h E e in
          if get_value (fst (fst x)) (snd x) =? 0 then Ok (fst (fst x), snd (fst x), FNormal)
          else
            let! y := exec fuel' P (fst (fst x)) ([] :: snd (fst x)) b in
            match snd y with
            | FNormal => exec1 fuel' P (fst (fst y)) (tail (snd (fst y))) (SWhile e b)
            | FReturn d => Ok (fst (fst y), tail (snd (fst y)), FReturn d)
            end
      (* visitReturn, 1164-1175 *)
      | SReturn None => Ok (h, E, FReturn blank)
      | SReturn (Some e) =>
          let! x := eval fuel' P h E e in
          Ok (fst (fst x), snd (fst x), FReturn (snd (assign (fst (fst x)) blank (snd x))))
      end
  end.
