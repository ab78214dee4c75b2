(** From the text of a file to a run of its methods: the parts of the program put together.

    - The declarations of the text: Designtime/Analyser.cpp and Parser.cpp, which are Decl_Model.
    - The tree of every method: AST/TreeGenerator.cpp:157-169 (generateAST) and 209-243 (initialize), over the readers of
      Parse_Model and Stmt_Model.
    - The run of the tree: AST/TreeInterpreter.cpp, which is Interp_Model. Reader and interpreter share the node classes of
      AST/Expression.h and AST/Statement.h; [run_expr] and [run_stmt] say which node of the one model is which node of the
      other.

    What is simplified:
    - only methods outside of objects are loaded, whose parameters have no default values and are neither const nor references,
      and without overloading: a call finds the method whose parameter types are exactly the types of the arguments (the full
      look-up is Scope_Model);
    - the control flow checks are those of Gen_Model, made on the nodes when the body has been read: the generator makes them
      while it reads, so that of two errors another one may come first, and it also sees blocks that leave no node because they
      are empty;
    - the const checks are Const_Model;
    - nodes that Interp_Model does not have (operator methods of objects, typeid, is, validation, foreach) are not loaded. *)
From Coq Require Import Floats.SpecFloat.
From Verif Require Import Base Text_Model Tok_Model TypeTable TypeSys_Model Value_Model Parse_Model Decl_Model Stmt_Model Interp_Model Gen_Model.

(** ** Nodes *)
(** The operations of evaluateUnaryExpression, TreeInterpreter.cpp:515-568 *)
Definition unary_of (op : ttype) : option uop :=
  match op with
  | MATH_ADDITION => Some UPlus
  | MATH_SUBTRACT => Some UMinus
  | OPERATOR_NOT => Some UNot
  | OPERATOR_DECREMENT => Some UDec
  | OPERATOR_INCREMENT => Some UInc
  | _ => None
  end.

(** Expression nodes, TreeInterpreter::evaluate, TreeInterpreter.cpp:79-104 *)
Fixpoint run_expr (p : pexpr) : option expr :=
  match p with
  | PLit v => Some (ELit v)
  | PSym x _ => Some (EVar x)
  | PBin op _ a b _ => match run_expr a, run_expr b with Some a, Some b => Some (EBin op a b) | _, _ => None end
  | PBool op _ a b => match run_expr a, run_expr b with Some a, Some b => Some (EBool op a b) | _, _ => None end
  | PUn op _ true (PSym x _) => match unary_of op with Some u => Some (EStep u x) | None => None end
  | PUn op _ true _ => None
  | PUn op _ false a => match unary_of op, run_expr a with Some u, Some a => Some (EUn u a) | _, _ => None end
  | PNot _ a => match run_expr a with Some a => Some (EUn UNot a) | None => None end
  | PTern c a b =>
      match run_expr c, run_expr a, run_expr b with Some c, Some a, Some b => Some (ETern c a b) | _, _, _ => None end
  | PElvis c b => match run_expr c, run_expr b with Some c, Some b => Some (EElvis c b) | _, _ => None end
  | PCast t a => match run_expr a with Some a => Some (ECast t a) | None => None end
  | PAssign x _ a _ => match run_expr a with Some a => Some (EAssign x a) | None => None end
  | PCall f args _ =>
      match (fix go (l : list pexpr) : option (list expr) :=
               match l with
               | [] => Some []
               | a :: l => match run_expr a, go l with Some a, Some l => Some (a :: l) | _, _ => None end
               end) args with
      | Some l => Some (ECall f l)
      | None => None
      end
  | PMeth _ _ _ _ | PTypeid _ | PIs _ _ => None
  end.
Definition run_opt_expr (p : option pexpr) : option (option expr) :=
  match p with None => Some None | Some p => match run_expr p with Some e => Some (Some e) | None => None end end.

(** Statement nodes, TreeInterpreter::visit and visitStatement, TreeInterpreter.cpp:936-953 and 1177-1239. A type inference is
    a type declaration (1404-1407). *)
Fixpoint run_stmt (q : pstmt) : option stmt :=
  let opt (q : option pstmt) : option stmt := match q with None => Some SSkip | Some q => run_stmt q end in
  let fix list (l : list pstmt) : option (list stmt) :=
    match l with
    | [] => Some []
    | q :: l => match run_stmt q, list l with Some s, Some l => Some (s :: l) | _, _ => None end
    end in
  match q with
  | QExpr e => match run_expr e with Some e => Some (SExpr e) | None => None end
  | QAssign x _ e => match run_expr e with Some e => Some (SAssign x e) | None => None end
  | QDecl t x _ _ e => match run_opt_expr e with Some e => Some (SDecl t x e) | None => None end
  | QVar t x _ _ e => match run_expr e with Some e => Some (SDecl t x (Some e)) | None => None end
  | QAssert e _ => match run_expr e with Some e => Some (SAssert e) | None => None end
  | QBreak => Some SBreak
  | QContinue => Some SContinue
  | QDelete e => match run_expr e with Some e => Some (SDelete e) | None => None end
  | QExit e => match run_expr e with Some e => Some (SExit e) | None => None end
  | QFor i c u b =>
      match opt i, run_opt_expr c, opt u, opt b with
      | Some i, Some c, Some u, Some b => Some (SFor i c u b)
      | _, _, _, _ => None
      end
  | QForeach _ _ _ => None
  | QIf e a b =>
      match run_expr e, opt a, opt b with Some e, Some a, Some b => Some (SIf e a b) | _, _, _ => None end
  | QPrint e => match run_expr e with Some e => Some (SPrint e) | None => None end
  | QReturn e => match run_opt_expr e with Some e => Some (SReturn e) | None => None end
  | QSwitch e cs d =>
      let fix cases (cs : Datatypes.list (pexpr * Datatypes.list pstmt)) : option (Datatypes.list (expr * Datatypes.list stmt)) :=
        match cs with
        | [] => Some []
        | (e, b) :: cs => match run_expr e, list b, cases cs with Some e, Some b, Some cs => Some ((e, b) :: cs) | _, _, _ => None end
        end in
      match run_expr e, cases cs, list d with Some e, Some cs, Some d => Some (SSwitch e cs d) | _, _, _ => None end
  | QThrow e => match run_opt_expr e with Some e => Some (SThrow e) | None => None end
  | QTry b cs fin =>
      let fix clauses (cs : Datatypes.list (option pstmt * Datatypes.list pstmt))
        : option (Datatypes.list (option (str * str) * Datatypes.list stmt)) :=
        match cs with
        | [] => Some []
        | (d, b) :: cs =>
            match list b, clauses cs with
            | Some b, Some cs =>
                match d with
                | None => Some ((None, b) :: cs)
                | Some (QDecl t x _ _ _) => Some ((Some (t, x), b) :: cs)
                | _ => None
                end
            | _, _ => None
            end
        end in
      match list b, clauses cs, list fin with
      | Some b, Some cs, Some fin => Some (STry b cs (match fin with [] => None | _ => Some fin end))
      | _, _, _ => None
      end
  | QWhile e b => match run_expr e, opt b with Some e, Some b => Some (SWhile e b) | _, _ => None end
  | QBlock l => match list l with Some l => Some (SBlock l) | None => None end
  end.
Fixpoint run_stmts (l : list pstmt) : option (list stmt) :=
  match l with
  | [] => Some []
  | q :: l => match run_stmt q, run_stmts l with Some s, Some l => Some (s :: l) | _, _ => None end
  end.

(** ** Control flow checks *)
(** The checks of Gen_Model on the nodes the reader builds: process_statement, TreeGenerator.cpp:1818-1857, and the process_
    functions of the statements. [rt] is the type of the method, [allow] is mStackFrame->allowBreakAndContinue(). *)
Section Flow.
Context (rt : str).
Fixpoint flow_stmt (allow : bool) (q : pstmt) (g : gst) {struct q} : res gst :=
  let opt (q : option pstmt) (g : gst) : res gst := match q with None => Ok g | Some q => flow_stmt allow q g end in
  let body (q : option pstmt) (g : gst) : res gst :=
    match q with
    | None => Ok g
    | Some (QBlock l) => gen_scope false (fold_res (flow_stmt true) l) g
    | Some q => flow_stmt allow q g
    end in
  match q with
  | QBreak => if allow then Ok (with_flow FBreak g) else Throw "ControlFlowException"          (* 1041-1055 *)
  | QContinue => if allow then Ok (with_flow FContinue g) else Throw "ControlFlowException"    (* 1101-1115 *)
  | QExit _ => Ok (with_flow FExit g)                                                          (* 1175-1192 *)
  | QReturn e =>                                                                               (* 1751-1773 *)
      if str_eqb rt (match e with None => t_void | Some e => ptype e end) then Ok (with_flow FReturn g) else Throw "TypeMismatch"
  | QThrow e =>                                                                                (* 1969-1988 *)
      let g1 := with_flow FThrow g in
      match e with None => Ok g1 | Some e => Ok (with_thrown (set_add (ptype e) (g_thrown g1)) g1) end
  | QBlock l => gen_scope false (fold_res (flow_stmt allow) l) g                               (* 1776-1782 *)
  | QIf _ a b => let! g1 := opt a g in opt b g1                                                (* 1451-1480 *)
  | QWhile _ b => body b g                                                                     (* 2217-2234 *)
  | QFor i _ it b => let! g1 := opt i g in let! g2 := body it g1 in body b g2                  (* 1226-1273 *)
  | QForeach _ _ b => body b g                                                                 (* 1279-1373 *)
  | QSwitch _ cs d =>                                                                          (* 1880-1961 *)
      let! g1 := fold_res (fun c => match c with (_, b) => gen_scope true (fold_res (flow_stmt true) b) end) cs g in
      match d with [] => Ok g1 | _ => gen_scope true (fold_res (flow_stmt true) d) g1 end
  | QTry b cs fin =>                                                                           (* 1996-2089 *)
      let saved := g_thrown g in
      let! g1 := gen_scope false (fold_res (flow_stmt allow) b) (with_thrown [] g) in
      let! g2 := fold_res (fun c => match c with (d, h) => fun x =>
                    gen_scope false (fold_res (flow_stmt allow) h)
                      (with_thrown (match d with Some (QDecl t _ _ _ _) => set_del t (g_thrown x) | _ => [] end) x) end) cs g1 in
      let! g3 := match fin with [] => Ok g2 | l => gen_scope false (fold_res (flow_stmt allow) l) g2 end in
      let caught := match cs with [] => [] | _ => g_thrown g3 end in
      Ok (with_thrown (set_union saved caught) g3)
  | QExpr _ | QAssert _ _ | QAssign _ _ _ | QDelete _ | QPrint _ | QDecl _ _ _ _ _ | QVar _ _ _ _ _ => Ok g
  end.
(** generateAST, 157-168, with initialize, 209-217, and finalize, 83-123 *)
Definition flow_method (throws : bool) (l : list pstmt) : res gst :=
  let! g := gen_scope false (fold_res (flow_stmt false) l) (Gst FNormal []) in
  if negb (bool_decide (g_thrown g = [])) && negb throws then Throw "ControlFlowException"
  else if negb (str_eqb rt t_void) && negb (match g_flow g with FReturn | FThrow => true | _ => false end)
  then Throw "SyntaxError"
  else Ok g.
End Flow.

(** ** Methods of a file *)
(** A method outside of objects: name, parameters (type, name), type, whether it is marked with throws, tokens of its body. *)
Record umethod := UMethod { u_name : str; u_params : list (str * str); u_ret : str; u_throws : bool; u_body : list token }.
(** A parameter that is passed by value, can be changed and has no default value *)
Definition plain_param (p : param) : bool :=
  match p with Param _ (TDecl _ [] Modify) Modify AUnspecified None => true | _ => false end.

(** The methods among the declarations of a file, Analyser::createMethodStub, Designtime/Analyser.cpp:463-540. A method marked as not
    implemented throws when it is called (Runtime/Interpreter.cpp:169-175). *)
Fixpoint methods_of (ds : list decl) : res (list umethod) :=
  match ds with
  | [] => Ok []
  | DMethod _ _ f (TDecl t [] Modify) name ps _ th (Some body) :: ds =>
      if forallb plain_param ps && match f with NotImplemented => false | _ => true end then
        let! us := methods_of ds in
        Ok (UMethod name (map (fun p => (td_name (pa_type p), pa_name p)) ps) t (match th with Throws => true | _ => false end) body :: us)
      else Throw "not modelled"
  | _ => Throw "not modelled"
  end.

Definition builtin_types : list str := [t_bool; t_double; t_float; t_int16; t_int; t_int64; t_string; t_void].
Definition is_builtin (t : str) : bool := existsb (str_eqb t) builtin_types.
Fixpoint find_umethod (us : list umethod) (f : str) (ts : list str) : option umethod :=
  match us with
  | [] => None
  | u :: us => if str_eqb f (u_name u) && bool_decide (map fst (u_params u) = ts) then Some u else find_umethod us f ts
  end.
(** What the reader of a body knows about the file: the built-in types (Repository and VirtualMachine::init) and the methods. *)
Definition unit_env (io : fio) (us : list umethod) : senv :=
  SEnv (PEnv builtin_table
             (fun x => if existsb (fun u => str_eqb x (u_name u)) us then Some KMethod
                       else if is_builtin x then Some (KType x true) else None)
             (fun f ts => match find_umethod us f ts with Some u => Some (u_ret u) | None => None end)
             (fun _ _ _ => None)
             is_builtin io)
       is_builtin
       (fun _ => Throw "not modelled").

(** The parameters as local variables, TreeGenerator::initialize, 231-243; parameters without a name are skipped. *)
Fixpoint param_scope (E : senv) (ps : list (str * str)) (sc : scopes) : res scopes :=
  match ps with
  | [] => Ok sc
  | (t, x) :: ps =>
      if bool_decide (x = []) then param_scope E ps sc
      else if negb (pe_type (se_env E) t) then Throw "UnknownIdentifier"
      else let! sc1 := define_local x (KVar t (se_atomic E t)) sc in param_scope E ps sc1
  end.
(** generateAST, TreeGenerator.cpp:157-169 *)
Definition load_method (E : senv) (u : umethod) : res (str * method) :=
  let! sc := param_scope E (u_params u) [[]] in
  let! q := read_method E sc (u_body u) in
  let! _ := flow_method (u_ret u) (u_throws u) q in
  match run_stmts q with
  | Some l => Ok (u_name u, Method (u_ret u) (u_params u) l)
  | None => Throw "not modelled"
  end.
Fixpoint load_methods (E : senv) (us : list umethod) : res (list (str * method)) :=
  match us with
  | [] => Ok []
  | u :: us => let! m := load_method E u in let! ms := load_methods E us in Ok (m :: ms)
  end.
(** The program of a text, with arbitrary extension methods. *)
Definition load_text (io : fio) (ext : str -> list obj -> option extres) (inst : str -> str -> bool) (text : str) : res prog :=
  let! ds := analyse_text text in
  let! us := methods_of ds in
  let! ms := load_methods (unit_env io us) us in
  Ok (Prog ms [] ext inst io).
