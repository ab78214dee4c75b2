(** Unfolding equations of the interpreter, one per function (generated from Interp_Model.v).
    Each is proved by reflexivity; afterwards the functions are opaque to conversion tactics. *)
From Coq Require Import Floats.SpecFloat.
From Verif Require Import Base Text_Model Tok_Model TypeTable TypeSys_Model Value_Model Interp_Model.

Section Eqs.
Context (P : prog).
Notation F := (p_io P).

Lemma eval_S (n : nat) (e : expr) (dst : obj) : eval P (S n) e dst =
  match e with
  | ELit v => ret v                                                     
  | EVar x =>                                                           
      do o <- lookup_var x;
      match o with
      | Some v => ret v
      | None => do_ set_exn (str_obj ($"NullPointerException: " ++ x)); raise FThrow
      end
  | EBin op a b =>                                                      
      do l <- eval P n a anon; do r <- eval P n b anon;
      do v <- lift (bin_value P op l r); lift (assign_to P dst v)
  | EBool op a b =>                                                     
      do l <- eval P n a anon;
      let out (b : bool) := ret (mk t_bool (ABool b)) in
      match op with
      | AND => if negb (is_true l) then out false else do r <- eval P n b anon; out (is_true l && is_true r)
      | NAND => if negb (is_true l) then out true else do r <- eval P n b anon; out (negb (is_true l) && negb (is_true r))
      | NOR => if is_true l then out false else do r <- eval P n b anon; out (negb (is_true l) || negb (is_true r))
      | OR => if is_true l then out true else do r <- eval P n b anon; out (is_true l || is_true r)
      | _ => do r <- eval P n b anon; lift (eval_boolean F op l r)
      end
  | EUn op a => do v <- eval P n a dst; lift (unary_op F op v)             
  | EStep op x =>                                                       
      do v <- lvalue x; do v' <- lift (unary_op F op v); do_ store_var x v'; lift (assign_to P dst v')
  | ETern c a b =>                                                      
      do v <- eval P n c anon; if is_true v then eval P n a dst else eval P n b dst
  | EElvis c b => do v <- eval P n c anon; if is_true v then ret v else eval P n b dst
  | ECast t a =>                                                        
      do v <- eval P n a anon; do v' <- lift (typecast F v t); lift (assign_to P dst v')
  | EAssign x e =>                                                      
      do _ <- lvalue x;
      try_control (eval P n e anon) dst (fun v =>
        do l <- lvalue x; do l' <- lift (assign_to P l v); do_ store_var x l'; lift (assign_to P dst l'))
  | ECall f args => do vs <- eval_args P n args; call P n f vs dst           
  | ENew c args =>                                                      
      do vs <- eval_args P n args; construct P n c vs
  end.
Proof. reflexivity. Qed.

Lemma eval_0 (e : expr) (dst : obj) : eval P 0 e dst = nofuel.
Proof. reflexivity. Qed.

Lemma eval_args_S (n : nat) (es : list expr) : eval_args P (S n) es =
  match es with
  | [] => ret []
  | e :: r => do v <- eval P n e anon; do vs <- eval_args P n r; ret (v :: vs)
  end.
Proof. reflexivity. Qed.

Lemma eval_args_0 (es : list expr) : eval_args P 0 es = nofuel.
Proof. reflexivity. Qed.

Lemma call_S (n : nat) (f : str) (args : list obj) (dst : obj) : call P (S n) f args dst =
  match find_method (p_methods P) f (length args) with
  | Some m => do r <- execute P n m args dst; promote r
  | None =>
      match p_ext P f args with
      | Some (XOk v) => do_ set_flow FNormal; promote v
      | Some XVoid => do_ set_flow FNormal; promote dst
      | Some (XFail what) => do_ set_exn (str_obj what); do_ set_flow FThrow; promote dst
      | None => do_ set_exn (str_obj ($"NullPointerException: " ++ f)); raise FThrow
      end
  end.
Proof. reflexivity. Qed.

Lemma call_0 (f : str) (args : list obj) (dst : obj) : call P 0 f args dst = nofuel.
Proof. reflexivity. Qed.

Lemma construct_S (n : nat) (c : str) (args : list obj) : construct P (S n) c args =
  match find_method (p_ctors P) c (length args) with
  | None => crash "no appropriate constructor found"
  | Some m => fun s =>
      let w := s_world s in
      let o := Obj c false false true (w_next w) (AInt 0) in
      let s0 := St (s_frames s) (World (w_globals w) (w_exn w) (w_out w) (w_next w + 1)) FNormal in
      match execute P n m args anon s0 with
      | (Val _, s') => (Val o, s')
      | (Raise _, s') => (Crash "ControlFlow exception left a constructor", s')
      | (Crash e, s') => (Crash e, s')
      | (Undef, s') => (Undef, s')
      | (NoFuel, s') => (NoFuel, s')
      end
  end.
Proof. reflexivity. Qed.

Lemma construct_0 (c : str) (args : list obj) : construct P 0 c args = nofuel.
Proof. reflexivity. Qed.

Lemma execute_S (n : nat) (m : method) (args : list obj) (dst : obj) : execute P (S n) m args dst =
  do sc <- lift (bind_params (m_params m) args);
  do_ push_frame sc;
  do_ process P n (m_body m);
  do rv <- pop_frame;
  ret (if str_eqb (m_ret m) t_void then dst else rv).
Proof. reflexivity. Qed.

Lemma execute_0 (m : method) (args : list obj) (dst : obj) : execute P 0 m args dst = nofuel.
Proof. reflexivity. Qed.

Lemma visit_S (n : nat) (s : stmt) : visit P (S n) s =
  match s with
  | SSkip => ret tt
  | SExpr e => try_control (eval P n e anon) tt (fun _ => ret tt)          
  | SAssert e =>                                                        
      try_control (eval P n e anon) tt (fun v => if is_true v then ret tt else crash "AssertionFailed")
  | SAssign x e =>                                                      
      do _ <- lvalue x;
      try_control (eval P n e anon) tt (fun v =>
        do l <- lvalue x; do l' <- lift (assign_to P l v); store_var x l')
  | SBlock l => block P n l
  | SBreak => set_flow FBreak                                           
  | SContinue => set_flow FContinue                                     
  | SDelete e => try_control (eval P n e anon) tt (fun _ => ret tt)        
  | SExit e =>                                                          
      try_control (eval P n e (default_obj t_int)) tt (fun v => do_ set_exn v; raise FExit)
  | SFor init c it body =>                                              
      do_ push_scope; do_ visit P n init; for_loop P n c it body anon
  | SForeach t x coll gi hn nx body =>                                  
      match coll with
      | Some e =>
          try_control (eval P n e anon) tt (fun _ =>
            do_ push_scope; do _ <- call P n gi [] anon; do_ pop_scope; foreach_loop P n t x hn nx body)
      | None => do _ <- call P n gi [] anon; foreach_loop P n t x hn nx body
      end
  | SIf c a b =>                                                        
      try_control (eval P n c anon) tt (fun v => if is_true v then visit P n a else visit P n b)
  | SPrint e =>                                                         
      try_control (eval P n e anon) tt (fun v => emit (to_std_string F (o_val v)))
  | SReturn None => set_flow FReturn                                    
  | SReturn (Some e) =>
      try_control (eval P n e anon) tt (fun v =>
        do r <- get_ret; do r' <- lift (assign_to P r v); do_ set_ret r'; set_flow FReturn)
  | SSwitch e cs d => switch_loop P n e cs d anon                         
  | SThrow None => set_flow FThrow                                      
  | SThrow (Some e) =>
      try_control (eval P n e anon) tt (fun v => do_ set_exn v; set_flow FThrow)
  | STry b cs fin =>                                                    
      do_ block P n b; do_ handle P n cs; finish P n fin
  | SDecl t x e =>                                                      
      do_ define x (default_obj t);
      match e with
      | None => ret tt
      | Some e =>
          try_control (eval P n e anon) tt (fun v =>
            do v' <- lift (assign_to P (default_obj t) v); store_var x v')
      end
  | SWhile c body => while_loop P n c body anon                           
  end.
Proof. reflexivity. Qed.

Lemma visit_0 (s : stmt) : visit P 0 s = nofuel.
Proof. reflexivity. Qed.

Lemma process_S (n : nat) (l : list stmt) : process P (S n) l =
  match l with
  | [] => ret tt
  | s :: r =>
      do c <- get_flow;
      match c with FNormal => do_ visit P n s; process P n r | _ => ret tt end
  end.
Proof. reflexivity. Qed.

Lemma process_0 (l : list stmt) : process P 0 l = nofuel.
Proof. reflexivity. Qed.

Lemma block_S (n : nat) (l : list stmt) : block P (S n) l =
  do_ push_scope; do_ process P n l; pop_scope.
Proof. reflexivity. Qed.

Lemma block_0 (l : list stmt) : block P 0 l = nofuel.
Proof. reflexivity. Qed.

Lemma handle_S (n : nat) (cs : list (option (str * str) * list stmt)) : handle P (S n) cs =
  do c <- get_flow;
  match c with
  | FThrow =>
      do_ match cs with [] => set_flow FNormal | _ => ret tt end;
      do e <- get_exn;
      match find_catch P e cs with
      | None => ret tt
      | Some (d, h) =>
          do_ push_scope;
          do_ match d, e with
              | Some (t, x), Some o =>
                  do_ define x (default_obj t);
                  do v <- lift (assign_to P (default_obj t) o);
                  store_var x v
              | _, _ => ret tt
              end;
          do_ set_flow FNormal;
          do_ block P n h;
          pop_scope
      end
  | _ => ret tt
  end.
Proof. reflexivity. Qed.

Lemma handle_0 (cs : list (option (str * str) * list stmt)) : handle P 0 cs = nofuel.
Proof. reflexivity. Qed.

Lemma finish_S (n : nat) (fin : option (list stmt)) : finish P (S n) fin =
  do pending <- get_flow;
  do_ match fin with
      | Some l => do_ set_flow FNormal; block P n l
      | None => ret tt
      end;
  do now <- get_flow;
  match now with FNormal => set_flow pending | _ => ret tt end.
Proof. reflexivity. Qed.

Lemma finish_0 (fin : option (list stmt)) : finish P 0 fin = nofuel.
Proof. reflexivity. Qed.

Lemma while_loop_S (n : nat) (c : expr) (body : stmt) (dst : obj) : while_loop P (S n) c body dst =
  try_control (eval P n c dst) tt (fun v =>
    if negb (is_true v) then ret tt
    else
      do_ visit P n body;
      do f <- get_flow;
      match f with
      | FBreak => set_flow FNormal
      | FContinue | FNormal => do_ set_flow FNormal; while_loop P n c body v
      | _ => ret tt
      end).
Proof. reflexivity. Qed.

Lemma while_loop_0 (c : expr) (body : stmt) (dst : obj) : while_loop P 0 c body dst = nofuel.
Proof. reflexivity. Qed.

Lemma for_loop_S (n : nat) (c : option expr) (it body : stmt) (dst : obj) : for_loop P (S n) c it body dst =
  let round (v : obj) :=
    do_ visit P n body;
    do f <- get_flow;
    match f with
    | FBreak => set_flow FNormal
    | FContinue | FNormal => do_ set_flow FNormal; do_ visit P n it; for_loop P n c it body v
    | _ => ret tt
    end in
  match c with
  | None => round dst
  | Some c => try_control (eval P n c dst) tt (fun v => if negb (is_true v) then pop_scope else round v)
  end.
Proof. reflexivity. Qed.

Lemma for_loop_0 (c : option expr) (it body : stmt) (dst : obj) : for_loop P 0 c it body dst = nofuel.
Proof. reflexivity. Qed.

Lemma foreach_loop_S (n : nat) (t x hn nx : str) (body : stmt) : foreach_loop P (S n) t x hn nx body =
  do_ push_scope;
  do v <- call P n hn [] anon;
  do_ pop_scope;
  if negb (is_true v) then ret tt
  else
    do_ push_scope;
    do_ define x (default_obj t);
    do_ push_scope;
    do o <- call P n nx [] (default_obj t);
    do_ pop_scope;
    do_ store_var x o;
    do_ visit P n body;
    do_ pop_scope;
    do f <- get_flow;
    match f with
    | FBreak => set_flow FNormal
    | FContinue | FNormal => do_ set_flow FNormal; foreach_loop P n t x hn nx body
    | _ => ret tt
    end.
Proof. reflexivity. Qed.

Lemma foreach_loop_0 (t x hn nx : str) (body : stmt) : foreach_loop P 0 t x hn nx body = nofuel.
Proof. reflexivity. Qed.

Lemma switch_loop_S (n : nat) (e : expr) (cs : list (expr * list stmt)) (d : list stmt) (dst : obj) : switch_loop P (S n) e cs d dst =
  let tail (v : obj) (matched : option bool) :=
    match matched with
    | None => ret tt                                   
    | Some b =>
        do_ (if b then ret tt else block P n d);
        do f <- get_flow;
        match f with
        | FBreak | FNormal => set_flow FNormal
        | FContinue => do_ set_flow FNormal; switch_loop P n e cs d v
        | _ => ret tt
        end
    end in
  match cs with
  | [] => tail dst (Some false)
  | _ => try_control (eval P n e dst) tt (fun v => do m <- switch_cases P n v cs; tail v m)
  end.
Proof. reflexivity. Qed.

Lemma switch_loop_0 (e : expr) (cs : list (expr * list stmt)) (d : list stmt) (dst : obj) : switch_loop P 0 e cs d dst = nofuel.
Proof. reflexivity. Qed.

Lemma switch_cases_S (n : nat) (v : obj) (cs : list (expr * list stmt)) : switch_cases P (S n) v cs =
  match cs with
  | [] => ret (Some false)
  | (ce, b) :: r =>
      try_control (eval P n ce anon) None (fun cv =>
        do eq <- lift (compare_op F CEq v cv);
        if eq then do_ block P n b; ret (Some true) else switch_cases P n v r)
  end.
Proof. reflexivity. Qed.

Lemma switch_cases_0 (v : obj) (cs : list (expr * list stmt)) : switch_cases P 0 v cs = nofuel.
Proof. reflexivity. Qed.

End Eqs.
#[global] Opaque eval.
#[global] Opaque eval_args.
#[global] Opaque call.
#[global] Opaque construct.
#[global] Opaque execute.
#[global] Opaque visit.
#[global] Opaque process.
#[global] Opaque block.
#[global] Opaque while_loop.
#[global] Opaque for_loop.
#[global] Opaque foreach_loop.
#[global] Opaque switch_loop.
#[global] Opaque switch_cases.
#[global] Opaque handle.
#[global] Opaque finish.
