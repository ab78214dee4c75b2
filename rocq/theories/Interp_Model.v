(** Model of the tree interpreter's control flow:
    Projects/Core/Core/AST/TreeInterpreter.cpp, with the stack frames of
    Projects/Core/Core/VirtualMachine/StackFrame.cpp and Threads.cpp.

    What is simplified throughout:
    - local variables hold values ([obj] of Value_Model); members of objects, the memory
      manager and destructors are the subject of Memory_Model;
    - methods are found by name and number of arguments (the full look-up is Scope_Model);
      namespaces, [this] and member access are left out; variables that outlive a call sit in
      one global scope;
    - const-ness, debugger notifications and source positions are left out;
    - the methods of an iterator object are ordinary methods of the table;
    - every function carries fuel, and running out of it is a distinct outcome. *)
From Coq Require Import Floats.SpecFloat.
From Verif Require Import Base Text_Model Tok_Model TypeTable TypeSys_Model Value_Model.

(** ControlFlow::E, Runtime/ControlFlow.h *)
Inductive flow := FNormal | FBreak | FContinue | FReturn | FThrow | FExit.

(** Expressions, AST/Expression.h. [EStep] is the lvalue form of ++ and --, [EElvis] the
    ternary whose condition node is also its first branch. *)
Inductive expr :=
| ELit (v : obj)
| EVar (x : str)
| EBin (op : ttype) (a b : expr)
| EBool (op : ttype) (a b : expr)
| EUn (op : uop) (a : expr)
| EStep (op : uop) (x : str)
| ETern (c a b : expr)
| EElvis (c b : expr)
| ECast (t : str) (a : expr)
| EAssign (x : str) (e : expr)
| ECall (f : str) (args : list expr)
| ENew (c : str) (args : list expr).

(** Statements, AST/Statement.h. [SSkip] is the null node. A [for] without condition has
    [None]; initialisation and iteration may be [SSkip]. [SForeach] names the three iterator
    methods the generator resolved (TreeGenerator.cpp:1281-1400). *)
Inductive stmt :=
| SSkip
| SExpr (e : expr)
| SAssert (e : expr)
| SAssign (x : str) (e : expr)
| SBlock (l : list stmt)
| SBreak
| SContinue
| SDelete (e : expr)
| SExit (e : expr)
| SFor (init : stmt) (c : option expr) (it body : stmt)
| SForeach (t x : str) (coll : option expr) (giter hasnext next : str) (body : stmt)
| SIf (c : expr) (a b : stmt)
| SPrint (e : expr)
| SReturn (e : option expr)
| SSwitch (e : expr) (cs : list (expr * list stmt)) (d : list stmt)
| SThrow (e : option expr)
| STry (b : list stmt) (cs : list (option (str * str) * list stmt)) (fin : option (list stmt))
| SDecl (t x : str) (e : option expr)
| SWhile (c : expr) (body : stmt).

Record method := Method { m_ret : str; m_params : list (str * str) (* type, name *); m_body : list stmt }.

(** Outcome of an extension method: a C++ function outside the model. *)
Inductive extres := XOk (v : obj) | XVoid | XFail (what : str).

(** A program: its methods, constructors, extension methods (arbitrary functions), the
    instance-of relation of its types and the number/text conversions. *)
Record prog := Prog {
  p_methods : list (str * method);
  p_ctors : list (str * method);
  p_ext : str -> list obj -> option extres;
  p_inst : str -> str -> bool;
  p_io : fio
}.

(** Scopes map names to objects; a frame has a stack of scopes (innermost first) and the
    return value, StackFrame.h. *)
Definition scope := list (str * obj).
Record frame := Frame { fr_scopes : list scope; fr_ret : obj }.
(** What is shared by all frames: globals, pending exception (Thread::exception), printed
    text, next fresh reference. *)
Record world := World { w_globals : scope; w_exn : option obj; w_out : list str; w_next : N }.
Record st := St { s_frames : list frame; s_world : world; s_flow : flow }.

(** Result of a C++ function: a value, a thrown ControlFlow::E (macro tryControl,
    TreeInterpreter.cpp:36-44), any other C++ exception, undefined behaviour, no fuel. *)
Inductive out (A : Type) := Val (a : A) | Raise (f : flow) | Crash (e : String.string) | Undef | NoFuel.
Arguments Val {A} a. Arguments Raise {A} f. Arguments Crash {A} e%string_scope.
Arguments Undef {A}. Arguments NoFuel {A}.

Definition M (A : Type) := st -> out A * st.
Definition ret {A} (a : A) : M A := fun s => (Val a, s).
Definition bind {A B} (m : M A) (k : A -> M B) : M B := fun s =>
  match m s with
  | (Val a, s') => k a s'
  | (Raise f, s') => (Raise f, s')
  | (Crash e, s') => (Crash e, s')
  | (Undef, s') => (Undef, s')
  | (NoFuel, s') => (NoFuel, s')
  end.
Notation "'do' x <- m ; k" := (bind m (fun x => k)) (at level 200, x name, m at level 100, k at level 200).
Notation "'do_' m ; k" := (bind m (fun _ => k)) (at level 200, m at level 100, k at level 200).
Definition raise {A} (f : flow) : M A := fun s => (Raise f, s).
Definition crash {A} (e : String.string) : M A := fun s => (Crash e, s).
Arguments crash {A} e%string_scope.
Definition nofuel {A} : M A := fun s => (NoFuel, s).
Definition lift {A} (r : res A) : M A := fun s =>
  match r with Ok a => (Val a, s) | Throw e => (Crash e, s) | UB => (Undef, s) | Fuel => (NoFuel, s) end.
Definition get_flow : M flow := fun s => (Val (s_flow s), s).
Definition set_flow (f : flow) : M unit := fun s => (Val tt, St (s_frames s) (s_world s) f).
Definition get_exn : M (option obj) := fun s => (Val (w_exn (s_world s)), s).
Definition set_exn (o : obj) : M unit := fun s =>
  let w := s_world s in
  (Val tt, St (s_frames s) (World (w_globals w) (Some o) (w_out w) (w_next w)) (s_flow s)).
(** Utils::Printer::print *)
Definition emit (t : str) : M unit := fun s =>
  let w := s_world s in
  (Val tt, St (s_frames s) (World (w_globals w) (w_exn w) (w_out w ++ [t]) (w_next w)) (s_flow s)).

(** macro tryControl, 36-44: a thrown flow becomes the current flow and the function returns
    [d]; otherwise it goes on with [k]. *)
Definition try_control {A B} (m : M A) (d : B) (k : A -> M B) : M B := fun s =>
  match m s with
  | (Val a, s') => k a s'
  | (Raise f, s') => (Val d, St (s_frames s') (s_world s') f)
  | (Crash e, s') => (Crash e, s')
  | (Undef, s') => (Undef, s')
  | (NoFuel, s') => (NoFuel, s')
  end.

(** ** Scopes and frames *)
(** SymbolScope::define / resolve on one scope, see Scope_Model. *)
Fixpoint sc_get (sc : scope) (x : str) : option obj :=
  match sc with [] => None | (y, o) :: r => if str_eqb x y then Some o else sc_get r x end.
Fixpoint sc_set (sc : scope) (x : str) (o : obj) : scope :=
  match sc with [] => [] | (y, v) :: r => if str_eqb x y then (y, o) :: r else (y, v) :: sc_set r x o end.
Fixpoint env_get (l : list scope) (x : str) : option obj :=
  match l with [] => None | sc :: r => match sc_get sc x with Some o => Some o | None => env_get r x end end.
(** Update of the innermost variable of that name; [None] if no scope has it. *)
Fixpoint env_set (l : list scope) (x : str) (o : obj) : option (list scope) :=
  match l with
  | [] => None
  | sc :: r => if sc_get sc x then Some (sc_set sc x o :: r)
               else match env_set r x o with Some r' => Some (sc :: r') | None => None end
  end.

(** getScope()->resolve in the current frame, then in the enclosing (global) scope. *)
Definition lookup_var (x : str) : M (option obj) := fun s =>
  match s_frames s with
  | [] => (Undef, s)
  | f :: _ => (Val (match env_get (fr_scopes f) x with Some o => Some o | None => sc_get (w_globals (s_world s)) x end), s)
  end.
(** Writing through the reference resolveLValue returned, 855-863; an unknown name is an
    AccessViolation. *)
Definition store_var (x : str) (o : obj) : M unit := fun s =>
  match s_frames s with
  | [] => (Undef, s)
  | f :: r =>
      match env_set (fr_scopes f) x o with
      | Some l => (Val tt, St (Frame l (fr_ret f) :: r) (s_world s) (s_flow s))
      | None =>
          let w := s_world s in
          match sc_get (w_globals w) x with
          | Some _ => (Val tt, St (s_frames s) (World (sc_set (w_globals w) x o) (w_exn w) (w_out w) (w_next w)) (s_flow s))
          | None => (Crash "AccessViolation", s)
          end
      end
  end.
Definition lvalue (x : str) : M obj :=
  do o <- lookup_var x; match o with Some v => ret v | None => crash "AccessViolation" end.
(** getScope()->define: a second definition in the same scope throws
    (SymbolScope::define, Scope.cpp:79-88). *)
Definition define (x : str) (o : obj) : M unit := fun s =>
  match s_frames s with
  | Frame (sc :: l) rv :: r =>
      if sc_get sc x then (Crash "DuplicateIdentifier", s)
      else (Val tt, St (Frame (((x, o) :: sc) :: l) rv :: r) (s_world s) (s_flow s))
  | _ => (Undef, s)
  end.
(** pushScope 836-844 and StackFrame::pushScope 70-73. *)
Definition push_scope : M unit := fun s =>
  match s_frames s with
  | [] => (Undef, s)
  | f :: r => (Val tt, St (Frame ([] :: fr_scopes f) (fr_ret f) :: r) (s_world s) (s_flow s))
  end.
(** popScope 716-719 and StackFrame::popScope 54-63 (back() of an empty list is undefined). *)
Definition pop_scope : M unit := fun s =>
  match s_frames s with
  | Frame (_ :: l) rv :: r => (Val tt, St (Frame l rv :: r) (s_world s) (s_flow s))
  | _ => (Undef, s)
  end.
(** The result object every expression is evaluated into starts as an anonymous object. *)
Definition anon : obj := Obj t_anonymous false false false 0 (AInt 0).
(** Thread::pushFrame / popFrame, Threads.cpp. *)
Definition push_frame (sc : scope) : M unit := fun s =>
  (Val tt, St (Frame [sc] anon :: s_frames s) (s_world s) (s_flow s)).
Definition pop_frame : M obj := fun s =>
  match s_frames s with
  | f :: r => (Val (fr_ret f), St r (s_world s) (s_flow s))
  | [] => (Undef, s)
  end.
Definition get_ret : M obj := fun s =>
  match s_frames s with f :: _ => (Val (fr_ret f), s) | [] => (Undef, s) end.
Definition set_ret (o : obj) : M unit := fun s =>
  match s_frames s with
  | f :: r => (Val tt, St (Frame (fr_scopes f) o :: r) (s_world s) (s_flow s))
  | [] => (Undef, s)
  end.

(** Repository::createInstance for a declared variable, Repository.cpp:104-190: built-in types
    hold their default value, every other type is a null reference. *)
Definition default_obj (t : str) : obj :=
  match kind_of t with
  | KBool => mk t_bool (ABool false)
  | KDouble => mk t_double (ADouble (d_of_int 0))
  | KFloat => mk t_float (AFloat (f_of_int 0))
  | KInt w => mk (int_name w) (AInt 0)
  | KString => mk t_string (AStr [])
  | KVoid => mk t_void (AInt 0)
  | KOther => Obj t false false true 0 (AInt 0)
  end.

(** Parameter objects, initialize 688-712: a reference is taken over, anything else is copied
    into an object of the declared type. *)
Definition param_obj (t : str) (a : obj) : obj :=
  if negb (o_ref a =? 0)%N then a
  else let d := default_obj t in Obj (o_type d) (o_atomic d) (o_enum d) false 0 (o_val a).
Fixpoint bind_params (ps : list (str * str)) (args : list obj) : res scope :=
  match ps, args with
  | (t, x) :: ps', a :: args' =>
      let! sc := bind_params ps' args' in
      if sc_get sc x then Throw "DuplicateIdentifier" else Ok ((x, param_obj t a) :: sc)
  | _, _ => Ok []
  end.
(** resolveMethod, simplified to name and number of parameters. *)
Fixpoint find_method (ms : list (str * method)) (f : str) (n : nat) : option method :=
  match ms with
  | [] => None
  | (g, m) :: r => if str_eqb f g && (length (m_params m) =? n)%nat then Some m else find_method r f n
  end.
(** A String object for the exceptions the interpreter itself throws, 287-297, 304-310, 434-445. *)
Definition str_obj (t : str) : obj := mk t_string (AStr t).

Section Interp.
Context (P : prog).
Notation F := (p_io P).

Definition assign_to (l r : obj) : res obj := assign_op F (p_inst P (o_type r) (o_type l)) l r.

(** Which catch clause takes an exception, 1329-1334. *)
Fixpoint find_catch (e : option obj) (cs : list (option (str * str) * list stmt))
  : option (option (str * str) * list stmt) :=
  match cs with
  | [] => None
  | (d, b) :: r =>
      match d with
      | None => Some (d, b)
      | Some (t, _) =>
          match e with
          | Some o => if p_inst P (o_type o) t then Some (d, b) else find_catch e r
          | None => find_catch e r
          end
      end
  end.

(** The switch after a call, 318-323. *)
Definition promote (r : obj) : M obj :=
  do c <- get_flow;
  match c with
  | FExit => raise FExit
  | FThrow => raise FThrow
  | _ => do_ set_flow FNormal; ret r
  end.

(** The value stored by a binary expression, 121-167. *)
Definition bin_value (op : ttype) (l r : obj) : res obj :=
  match aop_of op with Some o => binary_op F o l r | None => Throw "NotSupported" end.

Fixpoint eval (n : nat) (e : expr) (dst : obj) {struct n} : M obj :=
  match n with O => nofuel | S n =>
  match e with
  | ELit v => ret v                                                     (* 246-266 *)
  | EVar x =>                                                           (* 426-468 *)
      do o <- lookup_var x;
      match o with
      | Some v => ret v
      | None => do_ set_exn (str_obj ($"NullPointerException: " ++ x)); raise FThrow
      end
  | EBin op a b =>                                                      (* 121-167 *)
      do l <- eval n a anon; do r <- eval n b anon;
      do v <- lift (bin_value op l r); lift (assign_to dst v)
  | EBool op a b =>                                                     (* 169-225 *)
      do l <- eval n a anon;
      let out (b : bool) := ret (mk t_bool (ABool b)) in
      match op with
      | AND => if negb (is_true l) then out false else do r <- eval n b anon; out (is_true l && is_true r)
      | NAND => if negb (is_true l) then out true else do r <- eval n b anon; out (negb (is_true l) && negb (is_true r))
      | NOR => if is_true l then out false else do r <- eval n b anon; out (negb (is_true l) || negb (is_true r))
      | OR => if is_true l then out true else do r <- eval n b anon; out (is_true l || is_true r)
      | _ => do r <- eval n b anon; lift (eval_boolean F op l r)
      end
  | EUn op a => do v <- eval n a dst; lift (unary_op F op v)             (* 540-560 *)
  | EStep op x =>                                                       (* 515-538 *)
      do v <- lvalue x; do v' <- lift (unary_op F op v); do_ store_var x v'; lift (assign_to dst v')
  | ETern c a b =>                                                      (* 470-490 *)
      do v <- eval n c anon; if is_true v then eval n a dst else eval n b dst
  | EElvis c b => do v <- eval n c anon; if is_true v then ret v else eval n b dst
  | ECast t a =>                                                        (* 492-501 *)
      do v <- eval n a anon; do v' <- lift (typecast F v t); lift (assign_to dst v')
  | EAssign x e =>                                                      (* 106-119 *)
      do _ <- lvalue x;
      try_control (eval n e anon) dst (fun v =>
        do l <- lvalue x; do l' <- lift (assign_to l v); do_ store_var x l'; lift (assign_to dst l'))
  | ECall f args => do vs <- eval_args n args; call n f vs dst           (* 268-327 *)
  | ENew c args =>                                                      (* 329-354 *)
      do vs <- eval_args n args; construct n c vs
  end end
(** the argument loops, 273-281 and 339-348 *)
with eval_args (n : nat) (es : list expr) {struct n} : M (list obj) :=
  match n with O => nofuel | S n =>
  match es with
  | [] => ret []
  | e :: r => do v <- eval n e anon; do vs <- eval_args n r; ret (v :: vs)
  end end
(** evaluateMethodExpression after its arguments, 283-327 *)
with call (n : nat) (f : str) (args : list obj) (dst : obj) {struct n} : M obj :=
  match n with O => nofuel | S n =>
  match find_method (p_methods P) f (length args) with
  | Some m => do r <- execute n m args dst; promote r
  | None =>
      match p_ext P f args with
      | Some (XOk v) => do_ set_flow FNormal; promote v
      | Some XVoid => do_ set_flow FNormal; promote dst
      | Some (XFail what) => do_ set_exn (str_obj what); do_ set_flow FThrow; promote dst
      | None => do_ set_exn (str_obj ($"NullPointerException: " ++ f)); raise FThrow
      end
  end end
(** createReference and Object::Constructor, Object.cpp:158-192: the constructor runs in an
    interpreter of its own, which starts with flow Normal; its final flow becomes the flow of
    the calling interpreter. Simplified: a ControlFlow exception that leaves that interpreter
    (exit, foreach) is reported as a crash, because the two interpreters then disagree about
    the current frame. *)
with construct (n : nat) (c : str) (args : list obj) {struct n} : M obj :=
  match n with O => nofuel | S n =>
  match find_method (p_ctors P) c (length args) with
  | None => crash "no appropriate constructor found"
  | Some m => fun s =>
      let w := s_world s in
      let o := Obj c false false true (w_next w) (AInt 0) in
      let s0 := St (s_frames s) (World (w_globals w) (w_exn w) (w_out w) (w_next w + 1)) FNormal in
      match execute n m args anon s0 with
      | (Val _, s') => (Val o, s')
      | (Raise _, s') => (Crash "ControlFlow exception left a constructor", s')
      | (Crash e, s') => (Crash e, s')
      | (Undef, s') => (Undef, s')
      | (NoFuel, s') => (NoFuel, s')
      end
  end end
(** execute, 563-603; the resulting flow is left in the state *)
with execute (n : nat) (m : method) (args : list obj) (dst : obj) {struct n} : M obj :=
  match n with O => nofuel | S n =>
  do sc <- lift (bind_params (m_params m) args);
  do_ push_frame sc;
  do_ process n (m_body m);
  do rv <- pop_frame;
  ret (if str_eqb (m_ret m) t_void then dst else rv)
  end
(** visit and visitStatement, 928-950 and 1167-1242 *)
with visit (n : nat) (s : stmt) {struct n} : M unit :=
  match n with O => nofuel | S n =>
  match s with
  | SSkip => ret tt
  | SExpr e => try_control (eval n e anon) tt (fun _ => ret tt)          (* 1012-1016 *)
  | SAssert e =>                                                        (* 952-968 *)
      try_control (eval n e anon) tt (fun v => if is_true v then ret tt else crash "AssertionFailed")
  | SAssign x e =>                                                      (* 970-980 *)
      do _ <- lvalue x;
      try_control (eval n e anon) tt (fun v =>
        do l <- lvalue x; do l' <- lift (assign_to l v); store_var x l')
  | SBlock l => block n l
  | SBreak => set_flow FBreak                                           (* 982-985 *)
  | SContinue => set_flow FContinue                                     (* 987-990 *)
  | SDelete e => try_control (eval n e anon) tt (fun _ => ret tt)        (* 992-998 *)
  | SExit e =>                                                          (* 1000-1010 *)
      try_control (eval n e (default_obj t_int)) tt (fun v => do_ set_exn v; raise FExit)
  | SFor init c it body =>                                              (* 1018-1056 *)
      do_ push_scope; do_ visit n init; for_loop n c it body anon
  | SForeach t x coll gi hn nx body =>                                  (* 1058-1130 *)
      match coll with
      | Some e =>
          try_control (eval n e anon) tt (fun _ =>
            do_ push_scope; do _ <- call n gi [] anon; do_ pop_scope; foreach_loop n t x hn nx body)
      | None => do _ <- call n gi [] anon; foreach_loop n t x hn nx body
      end
  | SIf c a b =>                                                        (* 1132-1148 *)
      try_control (eval n c anon) tt (fun v => if is_true v then visit n a else visit n b)
  | SPrint e =>                                                         (* 1155-1161 *)
      try_control (eval n e anon) tt (fun v => emit (to_std_string F (o_val v)))
  | SReturn None => set_flow FReturn                                    (* 1163-1174 *)
  | SReturn (Some e) =>
      try_control (eval n e anon) tt (fun v =>
        do r <- get_ret; do r' <- lift (assign_to r v); do_ set_ret r'; set_flow FReturn)
  | SSwitch e cs d => switch_loop n e cs d anon                         (* 1253-1296 *)
  | SThrow None => set_flow FThrow                                      (* 1298-1313 *)
  | SThrow (Some e) =>
      try_control (eval n e anon) tt (fun v => do_ set_exn v; set_flow FThrow)
  | STry b cs fin =>                                                    (* 1315-1382 *)
      do_ block n b; do_ handle n cs; finish n fin
  | SDecl t x e =>                                                      (* 1384-1404 *)
      do_ define x (default_obj t);
      match e with
      | None => ret tt
      | Some e =>
          try_control (eval n e anon) tt (fun v =>
            do v' <- lift (assign_to (default_obj t) v); store_var x v')
      end
  | SWhile c body => while_loop n c body anon                           (* 1411-1437 *)
  end end
(** process, 822-834 *)
with process (n : nat) (l : list stmt) {struct n} : M unit :=
  match n with O => nofuel | S n =>
  match l with
  | [] => ret tt
  | s :: r =>
      do c <- get_flow;
      match c with FNormal => do_ visit n s; process n r | _ => ret tt end
  end end
(** visitStatements, 1244-1251 *)
with block (n : nat) (l : list stmt) {struct n} : M unit :=
  match n with O => nofuel | S n =>
  do_ push_scope; do_ process n l; pop_scope
  end
(** the exception handling of visitTry, 1320-1364 *)
with handle (n : nat) (cs : list (option (str * str) * list stmt)) {struct n} : M unit :=
  match n with O => nofuel | S n =>
  do c <- get_flow;
  match c with
  | FThrow =>
      do_ match cs with [] => set_flow FNormal | _ => ret tt end;
      do e <- get_exn;
      match find_catch e cs with
      | None => ret tt
      | Some (d, h) =>
          do_ push_scope;
          do_ match d, e with
              | Some (t, x), Some o =>
                  do_ define x (default_obj t);
                  do v <- lift (assign_to (default_obj t) o);
                  store_var x v
              | _, _ => ret tt
              end;
          do_ set_flow FNormal;
          do_ block n h;
          pop_scope
      end
  | _ => ret tt
  end end
(** the finally part of visitTry, 1366-1381 *)
with finish (n : nat) (fin : option (list stmt)) {struct n} : M unit :=
  match n with O => nofuel | S n =>
  do pending <- get_flow;
  do_ match fin with
      | Some l => do_ set_flow FNormal; block n l
      | None => ret tt
      end;
  do now <- get_flow;
  match now with FNormal => set_flow pending | _ => ret tt end
  end
(** the loop of visitWhile, 1415-1436; [dst] is the condition object, kept between rounds *)
with while_loop (n : nat) (c : expr) (body : stmt) (dst : obj) {struct n} : M unit :=
  match n with O => nofuel | S n =>
  try_control (eval n c dst) tt (fun v =>
    if negb (is_true v) then ret tt
    else
      do_ visit n body;
      do f <- get_flow;
      match f with
      | FBreak => set_flow FNormal
      | FContinue | FNormal => do_ set_flow FNormal; while_loop n c body v
      | _ => ret tt
      end)
  end
(** the loop of visitFor, 1027-1055 *)
with for_loop (n : nat) (c : option expr) (it body : stmt) (dst : obj) {struct n} : M unit :=
  match n with O => nofuel | S n =>
  let round (v : obj) :=
    do_ visit n body;
    do f <- get_flow;
    match f with
    | FBreak => set_flow FNormal
    | FContinue | FNormal => do_ set_flow FNormal; do_ visit n it; for_loop n c it body v
    | _ => ret tt
    end in
  match c with
  | None => round dst
  | Some c => try_control (eval n c dst) tt (fun v => if negb (is_true v) then pop_scope else round v)
  end end
(** the loop of visitForeach, 1081-1129 *)
with foreach_loop (n : nat) (t x hn nx : str) (body : stmt) {struct n} : M unit :=
  match n with O => nofuel | S n =>
  do_ push_scope;
  do v <- call n hn [] anon;
  do_ pop_scope;
  if negb (is_true v) then ret tt
  else
    do_ push_scope;
    do_ define x (default_obj t);
    do_ push_scope;
    do o <- call n nx [] (default_obj t);
    do_ pop_scope;
    do_ store_var x o;
    do_ visit n body;
    do_ pop_scope;
    do f <- get_flow;
    match f with
    | FBreak => set_flow FNormal
    | FContinue | FNormal => do_ set_flow FNormal; foreach_loop n t x hn nx body
    | _ => ret tt
    end
  end
(** the loop of visitSwitch, 1257-1295 *)
with switch_loop (n : nat) (e : expr) (cs : list (expr * list stmt)) (d : list stmt) (dst : obj) {struct n} : M unit :=
  match n with O => nofuel | S n =>
  let tail (v : obj) (matched : option bool) :=
    match matched with
    | None => ret tt                                   (* a case expression threw: return *)
    | Some b =>
        do_ (if b then ret tt else block n d);
        do f <- get_flow;
        match f with
        | FBreak | FNormal => set_flow FNormal
        | FContinue => do_ set_flow FNormal; switch_loop n e cs d v
        | _ => ret tt
        end
    end in
  match cs with
  | [] => tail dst (Some false)
  | _ => try_control (eval n e dst) tt (fun v => do m <- switch_cases n v cs; tail v m)
  end end
(** the loop over the cases, 1267-1281: [None] = returned by tryControl, [Some true] = a case
    matched and its block ran, [Some false] = no case matched *)
with switch_cases (n : nat) (v : obj) (cs : list (expr * list stmt)) {struct n} : M (option bool) :=
  match n with O => nofuel | S n =>
  match cs with
  | [] => ret (Some false)
  | (ce, b) :: r =>
      try_control (eval n ce anon) None (fun cv =>
        do eq <- lift (compare_op F CEq v cv);
        if eq then do_ block n b; ret (Some true) else switch_cases n v r)
  end end.

(** Running a method as the program's entry point (VirtualMachine::run): one frame. *)
Definition start (gl : scope) : st := St [] (World gl None [] 1) FNormal.
Definition run_main (n : nat) (m : method) (args : list obj) (gl : scope) : out obj * st :=
  execute n m args anon (start gl).
End Interp.
