(** Specification of structured control flow, independent of the interpreter: a big-step
    semantics in which a statement ends in one of five ways and scopes are nested lexically.
    There is no mutable "current flow", no frame stack and no C++ exception here.

    The parameter [full] switches between languages. With [full = Promise] the relations
    describe what the language promises. With [full = Core] they leave out the situations in
    which the interpreter departs from that promise (each is refuted in Interp_Props):
    - a [for] loop left by break, return or an exception, or whose initialisation or iteration
      statement does not end normally;
    - an iterator method of a foreach loop that throws;
    - an assignment used as an expression whose right-hand side throws;
    - a constructor that ends by return or by an exception;
    - the operators !& and !|.
    With [full = Leaky] they say in addition what the interpreter does, contrary to the promise, with a [for] loop
    that is left by return: the scopes of the loop stay; try is left out. This is used only in the proofs of C68.
    [exit] is described by no rule; see Interp_Props. *)
From Coq Require Import Floats.SpecFloat.
From Verif Require Import Base Text_Model Tok_Model TypeTable TypeSys_Model Value_Model Interp_Model.

(** What is described: see above. *)
Inductive language := Promise | Core | Leaky.
(** How a statement ends. *)
Inductive ending := Done | Brk | Cont | Ret | Thr.
(** How an expression ends: with a value, or by an exception. *)
Inductive result := V (o : obj) | T.

(** Everything a statement can see: the scopes of its method (innermost first), the method's
    return value so far, and what all methods share. *)
Record ctx := Ctx { x_env : list scope; x_ret : obj; x_world : world }.

Definition ctx_get (g : ctx) (x : str) : option obj :=
  match env_get (x_env g) x with Some o => Some o | None => sc_get (w_globals (x_world g)) x end.
(** Assigning an existing variable: the innermost one of that name. *)
Definition ctx_set (g : ctx) (x : str) (o : obj) : option ctx :=
  match env_set (x_env g) x o with
  | Some l => Some (Ctx l (x_ret g) (x_world g))
  | None =>
      let w := x_world g in
      match sc_get (w_globals w) x with
      | Some _ => Some (Ctx (x_env g) (x_ret g) (World (sc_set (w_globals w) x o) (w_exn w) (w_out w) (w_next w)))
      | None => None
      end
  end.
(** Declaring a variable in the innermost scope. *)
Definition ctx_declare (g : ctx) (x : str) (o : obj) : option ctx :=
  match x_env g with
  | sc :: l => match sc_get sc x with None => Some (Ctx (((x, o) :: sc) :: l) (x_ret g) (x_world g)) | Some _ => None end
  | [] => None
  end.
Definition ctx_push (g : ctx) : ctx := Ctx ([] :: x_env g) (x_ret g) (x_world g).
Definition ctx_pop (g : ctx) : ctx := Ctx (tail (x_env g)) (x_ret g) (x_world g).
Definition throwing (g : ctx) (o : obj) : ctx :=
  let w := x_world g in Ctx (x_env g) (x_ret g) (World (w_globals w) (Some o) (w_out w) (w_next w)).
Definition printing (g : ctx) (t : str) : ctx :=
  let w := x_world g in Ctx (x_env g) (x_ret g) (World (w_globals w) (w_exn w) (w_out w ++ [t]) (w_next w)).
Definition returning (g : ctx) (o : obj) : ctx := Ctx (x_env g) o (x_world g).

Section Spec.
Context (P : prog) (full : language).
Notation F := (p_io P).

Definition boolean (b : bool) : obj := mk t_bool (ABool b).

(** A catch clause accepts every exception if it is untyped, otherwise the instances of its type. *)
Definition accepting (e : option obj) (c : option (str * str) * list stmt) : Prop :=
  match fst c with
  | None => True
  | Some (t, _) => exists o, e = Some o /\ p_inst P (o_type o) t = true
  end.
Definition first_accepting (e : option obj) (cs : list (option (str * str) * list stmt)) (c : option (str * str) * list stmt) : Prop :=
  exists pre post, cs = pre ++ c :: post /\ accepting e c /\ Forall (fun c' => ~ accepting e c') pre.

(** [ev g e d r g']: evaluating [e] in [g] into a destination that holds [d] ends with [r], leaving [g'].
    [evs] evaluates arguments from left to right, [calls] calls a method with evaluated arguments.
    [runs] executes a statement, [runs_list] a sequence, [runs_block] a sequence in a scope of its own. *)
Inductive ev : ctx -> expr -> obj -> result -> ctx -> Prop :=
| ev_lit g v d : ev g (ELit v) d (V v) g
| ev_var g x d v : ctx_get g x = Some v -> ev g (EVar x) d (V v) g
| ev_var_unknown g x d : ctx_get g x = None ->
    ev g (EVar x) d T (throwing g (str_obj ($"NullPointerException: " ++ x)))
(* both operands, left to right *)
| ev_bin g op a b d l r v v' g1 g2 :
    ev g a anon (V l) g1 -> ev g1 b anon (V r) g2 ->
    bin_value P op l r = Ok v -> assign_to P d v = Ok v' ->
    ev g (EBin op a b) d (V v') g2
| ev_bin_left g op a b d g1 : ev g a anon T g1 -> ev g (EBin op a b) d T g1
| ev_bin_right g op a b d l g1 g2 :
    ev g a anon (V l) g1 -> ev g1 b anon T g2 -> ev g (EBin op a b) d T g2
(* conjunction and disjunction decide by the left operand if possible *)
| ev_and_false g a b d l g1 :
    ev g a anon (V l) g1 -> is_true l = false -> ev g (EBool AND a b) d (V (boolean false)) g1
| ev_and g a b d l r g1 g2 :
    ev g a anon (V l) g1 -> is_true l = true -> ev g1 b anon (V r) g2 ->
    ev g (EBool AND a b) d (V (boolean (is_true r))) g2
| ev_or_true g a b d l g1 :
    ev g a anon (V l) g1 -> is_true l = true -> ev g (EBool OR a b) d (V (boolean true)) g1
| ev_or g a b d l r g1 g2 :
    ev g a anon (V l) g1 -> is_true l = false -> ev g1 b anon (V r) g2 ->
    ev g (EBool OR a b) d (V (boolean (is_true r))) g2
| ev_nand_true g a b d l g1 : full = Promise ->
    ev g a anon (V l) g1 -> is_true l = false -> ev g (EBool NAND a b) d (V (boolean true)) g1
| ev_nand g a b d l r g1 g2 : full = Promise ->
    ev g a anon (V l) g1 -> is_true l = true -> ev g1 b anon (V r) g2 ->
    ev g (EBool NAND a b) d (V (boolean (negb (is_true r)))) g2
| ev_nor_false g a b d l g1 : full = Promise ->
    ev g a anon (V l) g1 -> is_true l = true -> ev g (EBool NOR a b) d (V (boolean false)) g1
| ev_nor g a b d l r g1 g2 : full = Promise ->
    ev g a anon (V l) g1 -> is_true l = false -> ev g1 b anon (V r) g2 ->
    ev g (EBool NOR a b) d (V (boolean (negb (is_true r)))) g2
| ev_compare g op a b d l r v g1 g2 :
    op <> AND -> op <> OR -> op <> NAND -> op <> NOR ->
    ev g a anon (V l) g1 -> ev g1 b anon (V r) g2 -> eval_boolean F op l r = Ok v ->
    ev g (EBool op a b) d (V v) g2
| ev_bool_left g op a b d g1 : ev g a anon T g1 -> ev g (EBool op a b) d T g1
| ev_and_right g a b d l g1 g2 :
    ev g a anon (V l) g1 -> is_true l = true -> ev g1 b anon T g2 -> ev g (EBool AND a b) d T g2
| ev_or_right g a b d l g1 g2 :
    ev g a anon (V l) g1 -> is_true l = false -> ev g1 b anon T g2 -> ev g (EBool OR a b) d T g2
| ev_nand_right g a b d l g1 g2 : full = Promise ->
    ev g a anon (V l) g1 -> is_true l = true -> ev g1 b anon T g2 -> ev g (EBool NAND a b) d T g2
| ev_nor_right g a b d l g1 g2 : full = Promise ->
    ev g a anon (V l) g1 -> is_true l = false -> ev g1 b anon T g2 -> ev g (EBool NOR a b) d T g2
| ev_compare_right g op a b d l g1 g2 :
    op <> AND -> op <> OR -> op <> NAND -> op <> NOR ->
    ev g a anon (V l) g1 -> ev g1 b anon T g2 -> ev g (EBool op a b) d T g2
| ev_un g op a d v v' g1 : ev g a d (V v) g1 -> unary_op F op v = Ok v' -> ev g (EUn op a) d (V v') g1
| ev_un_throw g op a d g1 : ev g a d T g1 -> ev g (EUn op a) d T g1
| ev_step g op x d v v' v'' g1 :
    ctx_get g x = Some v -> unary_op F op v = Ok v' -> ctx_set g x v' = Some g1 ->
    assign_to P d v' = Ok v'' -> ev g (EStep op x) d (V v'') g1
| ev_tern g c a b d v r g1 g2 :
    ev g c anon (V v) g1 -> ev g1 (if is_true v then a else b) d r g2 -> ev g (ETern c a b) d r g2
| ev_tern_throw g c a b d g1 : ev g c anon T g1 -> ev g (ETern c a b) d T g1
| ev_elvis_true g c b d v g1 : ev g c anon (V v) g1 -> is_true v = true -> ev g (EElvis c b) d (V v) g1
| ev_elvis_false g c b d v r g1 g2 :
    ev g c anon (V v) g1 -> is_true v = false -> ev g1 b d r g2 -> ev g (EElvis c b) d r g2
| ev_elvis_throw g c b d g1 : ev g c anon T g1 -> ev g (EElvis c b) d T g1
| ev_cast g t a d v v' v'' g1 :
    ev g a anon (V v) g1 -> typecast F v t = Ok v' -> assign_to P d v' = Ok v'' -> ev g (ECast t a) d (V v'') g1
| ev_cast_throw g t a d g1 : ev g a anon T g1 -> ev g (ECast t a) d T g1
| ev_assign g x e d v l0 l l' v' g1 g2 :
    ctx_get g x = Some l0 -> ev g e anon (V v) g1 -> ctx_get g1 x = Some l -> assign_to P l v = Ok l' ->
    ctx_set g1 x l' = Some g2 -> assign_to P d l' = Ok v' -> ev g (EAssign x e) d (V v') g2
| ev_assign_throw g x e d l0 g1 : full = Promise ->
    ctx_get g x = Some l0 -> ev g e anon T g1 -> ev g (EAssign x e) d T g1
| ev_call g f args d vs r g1 g2 :
    evs g args (Some vs) g1 -> calls g1 f vs d r g2 -> ev g (ECall f args) d r g2
| ev_call_args g f args d g1 : evs g args None g1 -> ev g (ECall f args) d T g1
(* a constructor: the new object, after the constructor's body ran in its own scope *)
| ev_new g c args d vs m sc k g1 env' ret' w' :
    evs g args (Some vs) g1 -> find_method (p_ctors P) c (length vs) = Some m ->
    bind_params (m_params m) vs = Ok sc ->
    runs_list (let w := x_world g1 in Ctx [sc] anon (World (w_globals w) (w_exn w) (w_out w) (w_next w + 1)))
              (m_body m) k (Ctx env' ret' w') ->
    k = Done \/ (full = Promise /\ k = Ret) ->
    ev g (ENew c args) d (V (Obj c false false true (w_next (x_world g1)) (AInt 0))) (Ctx (x_env g1) (x_ret g1) w')
| ev_new_throw g c args d vs m sc g1 env' ret' w' : full = Promise ->
    evs g args (Some vs) g1 -> find_method (p_ctors P) c (length vs) = Some m ->
    bind_params (m_params m) vs = Ok sc ->
    runs_list (let w := x_world g1 in Ctx [sc] anon (World (w_globals w) (w_exn w) (w_out w) (w_next w + 1)))
              (m_body m) Thr (Ctx env' ret' w') ->
    ev g (ENew c args) d T (Ctx (x_env g1) (x_ret g1) w')
| ev_new_args g c args d g1 : evs g args None g1 -> ev g (ENew c args) d T g1
with evs : ctx -> list expr -> option (list obj) -> ctx -> Prop :=
| evs_nil g : evs g [] (Some []) g
| evs_cons g e es v vs g1 g2 : ev g e anon (V v) g1 -> evs g1 es (Some vs) g2 -> evs g (e :: es) (Some (v :: vs)) g2
| evs_first g e es g1 : ev g e anon T g1 -> evs g (e :: es) None g1
| evs_rest g e es v g1 g2 : ev g e anon (V v) g1 -> evs g1 es None g2 -> evs g (e :: es) None g2
with calls : ctx -> str -> list obj -> obj -> result -> ctx -> Prop :=
(* a method runs in a scope of its own that holds its parameters; falling off the end and
   return both end it; an exception that leaves the body leaves the call *)
| calls_method g f vs d m sc k env' ret' w' :
    find_method (p_methods P) f (length vs) = Some m -> bind_params (m_params m) vs = Ok sc ->
    runs_list (Ctx [sc] anon (x_world g)) (m_body m) k (Ctx env' ret' w') ->
    k = Done \/ k = Ret ->
    calls g f vs d (V (if str_eqb (m_ret m) t_void then d else ret')) (Ctx (x_env g) (x_ret g) w')
| calls_method_throw g f vs d m sc env' ret' w' :
    find_method (p_methods P) f (length vs) = Some m -> bind_params (m_params m) vs = Ok sc ->
    runs_list (Ctx [sc] anon (x_world g)) (m_body m) Thr (Ctx env' ret' w') ->
    calls g f vs d T (Ctx (x_env g) (x_ret g) w')
| calls_ext g f vs d v :
    find_method (p_methods P) f (length vs) = None -> p_ext P f vs = Some (XOk v) -> calls g f vs d (V v) g
| calls_ext_void g f vs d :
    find_method (p_methods P) f (length vs) = None -> p_ext P f vs = Some XVoid -> calls g f vs d (V d) g
| calls_ext_fail g f vs d what :
    find_method (p_methods P) f (length vs) = None -> p_ext P f vs = Some (XFail what) ->
    calls g f vs d T (throwing g (str_obj what))
| calls_unknown g f vs d :
    find_method (p_methods P) f (length vs) = None -> p_ext P f vs = None ->
    calls g f vs d T (throwing g (str_obj ($"NullPointerException: " ++ f)))
with runs : ctx -> stmt -> ending -> ctx -> Prop :=
| runs_skip g : runs g SSkip Done g
| runs_expr g e v g1 : ev g e anon (V v) g1 -> runs g (SExpr e) Done g1
| runs_expr_throw g e g1 : ev g e anon T g1 -> runs g (SExpr e) Thr g1
| runs_assert g e v g1 : ev g e anon (V v) g1 -> is_true v = true -> runs g (SAssert e) Done g1
| runs_assert_throw g e g1 : ev g e anon T g1 -> runs g (SAssert e) Thr g1
| runs_assign g x e v l0 l l' g1 g2 :
    ctx_get g x = Some l0 -> ev g e anon (V v) g1 -> ctx_get g1 x = Some l -> assign_to P l v = Ok l' ->
    ctx_set g1 x l' = Some g2 -> runs g (SAssign x e) Done g2
| runs_assign_throw g x e l0 g1 : ctx_get g x = Some l0 -> ev g e anon T g1 -> runs g (SAssign x e) Thr g1
| runs_block_stmt g l k g1 : runs_block g l k g1 -> runs g (SBlock l) k g1
| runs_break g : runs g SBreak Brk g
| runs_continue g : runs g SContinue Cont g
| runs_delete g e v g1 : ev g e anon (V v) g1 -> runs g (SDelete e) Done g1
| runs_delete_throw g e g1 : ev g e anon T g1 -> runs g (SDelete e) Thr g1
| runs_if g c a b v k g1 g2 :
    ev g c anon (V v) g1 -> runs g1 (if is_true v then a else b) k g2 -> runs g (SIf c a b) k g2
| runs_if_throw g c a b g1 : ev g c anon T g1 -> runs g (SIf c a b) Thr g1
| runs_print g e v g1 : ev g e anon (V v) g1 -> runs g (SPrint e) Done (printing g1 (to_std_string F (o_val v)))
| runs_print_throw g e g1 : ev g e anon T g1 -> runs g (SPrint e) Thr g1
| runs_return_void g : runs g (SReturn None) Ret g
| runs_return g e v r g1 :
    ev g e anon (V v) g1 -> assign_to P (x_ret g1) v = Ok r -> runs g (SReturn (Some e)) Ret (returning g1 r)
| runs_return_throw g e g1 : ev g e anon T g1 -> runs g (SReturn (Some e)) Thr g1
| runs_rethrow g : runs g (SThrow None) Thr g
| runs_throw g e v g1 : ev g e anon (V v) g1 -> runs g (SThrow (Some e)) Thr (throwing g1 v)
| runs_throw_throw g e g1 : ev g e anon T g1 -> runs g (SThrow (Some e)) Thr g1
| runs_decl g t x g1 : ctx_declare g x (default_obj t) = Some g1 -> runs g (SDecl t x None) Done g1
| runs_decl_init g t x e v v' g1 g2 g3 :
    ctx_declare g x (default_obj t) = Some g1 -> ev g1 e anon (V v) g2 ->
    assign_to P (default_obj t) v = Ok v' -> ctx_set g2 x v' = Some g3 -> runs g (SDecl t x (Some e)) Done g3
| runs_decl_throw g t x e g1 g2 :
    ctx_declare g x (default_obj t) = Some g1 -> ev g1 e anon T g2 -> runs g (SDecl t x (Some e)) Thr g2
| runs_while g c b k g1 : runs_loop g c b anon k g1 -> runs g (SWhile c b) k g1
(* for: a scope for the loop variable, the initialisation, then rounds *)
| runs_for g i c it b k g1 g2 :
    runs (ctx_push g) i Done g1 -> runs_rounds g1 c it b anon k g2 -> (full = Leaky -> k <> Ret) ->
    runs g (SFor i c it b) k (ctx_pop g2)
| runs_for_kept g i c it b g1 g2 : full = Leaky ->
    runs (ctx_push g) i Done g1 -> runs_rounds g1 c it b anon Ret g2 -> runs g (SFor i c it b) Ret g2
| runs_for_init g i c it b k g1 : full = Promise ->
    runs (ctx_push g) i k g1 -> k <> Done -> runs g (SFor i c it b) k (ctx_pop g1)
| runs_foreach g t x coll gi hn nx b o o' k g1 g2 g3 :
    ev g coll anon (V o) g1 -> calls (ctx_push g1) gi [] anon (V o') g2 ->
    runs_items (ctx_pop g2) t x hn nx b k g3 -> runs g (SForeach t x (Some coll) gi hn nx b) k g3
| runs_foreach_coll_throw g t x coll gi hn nx b g1 :
    ev g coll anon T g1 -> runs g (SForeach t x (Some coll) gi hn nx b) Thr g1
| runs_foreach_iter_throw g t x coll gi hn nx b o g1 g2 : full = Promise ->
    ev g coll anon (V o) g1 -> calls (ctx_push g1) gi [] anon T g2 ->
    runs g (SForeach t x (Some coll) gi hn nx b) Thr (ctx_pop g2)
| runs_foreach_iterator g t x gi hn nx b o k g1 g2 :
    calls g gi [] anon (V o) g1 -> runs_items g1 t x hn nx b k g2 -> runs g (SForeach t x None gi hn nx b) k g2
| runs_foreach_iterator_throw g t x gi hn nx b g1 : full = Promise ->
    calls g gi [] anon T g1 -> runs g (SForeach t x None gi hn nx b) Thr g1
(* switch: break ends it, continue starts it again *)
| runs_switch g e cs d k g1 : runs_select g e cs d anon k g1 -> runs g (SSwitch e cs d) k g1
(* try: body, handler, finally *)
| runs_try g b cs fin k k1 k2 g1 g2 g3 : full <> Leaky ->
    runs_block g b k g1 -> runs_handler g1 k cs k1 g2 -> runs_finally g2 k1 fin k2 g3 -> runs g (STry b cs fin) k2 g3
with runs_handler : ctx -> ending -> list (option (str * str) * list stmt) -> ending -> ctx -> Prop :=
| handler_none g k cs : k <> Thr -> runs_handler g k cs k g
| handler_all g : runs_handler g Thr [] Done g
| handler_miss g cs : cs <> [] -> Forall (fun c => ~ accepting (w_exn (x_world g)) c) cs -> runs_handler g Thr cs Thr g
| handler_untyped g cs h k g1 :
    first_accepting (w_exn (x_world g)) cs (None, h) ->
    runs_block (ctx_push g) h k g1 -> runs_handler g Thr cs k (ctx_pop g1)
| handler_typed g cs t x h o v k g1 g2 :
    first_accepting (w_exn (x_world g)) cs (Some (t, x), h) -> w_exn (x_world g) = Some o ->
    assign_to P (default_obj t) o = Ok v -> ctx_declare (ctx_push g) x v = Some g1 ->
    runs_block g1 h k g2 -> runs_handler g Thr cs k (ctx_pop g2)
with runs_finally : ctx -> ending -> option (list stmt) -> ending -> ctx -> Prop :=
| finally_none g k : runs_finally g k None k g
| finally_done g k l g1 : runs_block g l Done g1 -> runs_finally g k (Some l) k g1
| finally_wins g k l k' g1 : runs_block g l k' g1 -> k' <> Done -> runs_finally g k (Some l) k' g1
with runs_list : ctx -> list stmt -> ending -> ctx -> Prop :=
| list_nil g : runs_list g [] Done g
| list_next g s l k g1 g2 : runs g s Done g1 -> runs_list g1 l k g2 -> runs_list g (s :: l) k g2
| list_stop g s l k g1 : runs g s k g1 -> k <> Done -> runs_list g (s :: l) k g1
with runs_block : ctx -> list stmt -> ending -> ctx -> Prop :=
| block_scope g l k g1 : runs_list (ctx_push g) l k g1 -> runs_block g l k (ctx_pop g1)
(* the rounds of a while loop; [d] is the object that receives the condition *)
with runs_loop : ctx -> expr -> stmt -> obj -> ending -> ctx -> Prop :=
| loop_throw g c b d g1 : ev g c d T g1 -> runs_loop g c b d Thr g1
| loop_end g c b d v g1 : ev g c d (V v) g1 -> is_true v = false -> runs_loop g c b d Done g1
| loop_break g c b d v g1 g2 :
    ev g c d (V v) g1 -> is_true v = true -> runs g1 b Brk g2 -> runs_loop g c b d Done g2
| loop_leave g c b d v k g1 g2 :
    ev g c d (V v) g1 -> is_true v = true -> runs g1 b k g2 -> k = Ret \/ k = Thr -> runs_loop g c b d k g2
| loop_again g c b d v k k' g1 g2 g3 :
    ev g c d (V v) g1 -> is_true v = true -> runs g1 b k g2 -> k = Done \/ k = Cont ->
    runs_loop g2 c b v k' g3 -> runs_loop g c b d k' g3
with runs_rounds : ctx -> option expr -> stmt -> stmt -> obj -> ending -> ctx -> Prop :=
| rounds_end g c it b d v g1 : ev g c d (V v) g1 -> is_true v = false -> runs_rounds g (Some c) it b d Done g1
| rounds_throw g c it b d g1 : full = Promise -> ev g c d T g1 -> runs_rounds g (Some c) it b d Thr g1
| rounds_break g c it b d v g1 g2 : full = Promise ->
    runs_cond g c d v g1 -> runs g1 b Brk g2 -> runs_rounds g c it b d Done g2
| rounds_leave g c it b d v k g1 g2 : full = Promise ->
    runs_cond g c d v g1 -> runs g1 b k g2 -> k = Ret \/ k = Thr -> runs_rounds g c it b d k g2
| rounds_kept g c it b d v g1 g2 : full = Leaky ->
    runs_cond g c d v g1 -> runs g1 b Ret g2 -> runs_rounds g c it b d Ret g2
| rounds_again g c it b d v k k' g1 g2 g3 g4 :
    runs_cond g c d v g1 -> runs g1 b k g2 -> k = Done \/ k = Cont ->
    runs g2 it Done g3 -> runs_rounds g3 c it b v k' g4 -> runs_rounds g c it b d k' g4
| rounds_iteration g c it b d v k k' g1 g2 g3 : full = Promise ->
    runs_cond g c d v g1 -> runs g1 b k g2 -> k = Done \/ k = Cont ->
    runs g2 it k' g3 -> k' <> Done -> runs_rounds g c it b d k' g3
with runs_cond : ctx -> option expr -> obj -> obj -> ctx -> Prop :=
| cond_none g d : runs_cond g None d d g
| cond_some g c d v g1 : ev g c d (V v) g1 -> is_true v = true -> runs_cond g (Some c) d v g1
(* the rounds of a foreach loop: a scope with the loop variable for each item *)
with runs_items : ctx -> str -> str -> str -> str -> stmt -> ending -> ctx -> Prop :=
| items_end g t x hn nx b v g1 :
    calls (ctx_push g) hn [] anon (V v) g1 -> is_true v = false -> runs_items g t x hn nx b Done (ctx_pop g1)
| items_throw g t x hn nx b g1 : full = Promise ->
    calls (ctx_push g) hn [] anon T g1 -> runs_items g t x hn nx b Thr (ctx_pop g1)
| items_next_throw g t x hn nx b v g1 g2 g3 : full = Promise ->
    calls (ctx_push g) hn [] anon (V v) g1 -> is_true v = true ->
    ctx_declare (ctx_push (ctx_pop g1)) x (default_obj t) = Some g2 ->
    calls (ctx_push g2) nx [] (default_obj t) T g3 -> runs_items g t x hn nx b Thr (ctx_pop (ctx_pop g3))
| items_stop g t x hn nx b v o k k' g1 g2 g3 g4 g5 :
    calls (ctx_push g) hn [] anon (V v) g1 -> is_true v = true ->
    ctx_declare (ctx_push (ctx_pop g1)) x (default_obj t) = Some g2 ->
    calls (ctx_push g2) nx [] (default_obj t) (V o) g3 ->
    ctx_set (ctx_pop g3) x o = Some g4 -> runs g4 b k g5 ->
    (k = Brk /\ k' = Done) \/ ((k = Ret \/ k = Thr) /\ k' = k) ->
    runs_items g t x hn nx b k' (ctx_pop g5)
| items_again g t x hn nx b v o k k' g1 g2 g3 g4 g5 g6 :
    calls (ctx_push g) hn [] anon (V v) g1 -> is_true v = true ->
    ctx_declare (ctx_push (ctx_pop g1)) x (default_obj t) = Some g2 ->
    calls (ctx_push g2) nx [] (default_obj t) (V o) g3 ->
    ctx_set (ctx_pop g3) x o = Some g4 -> runs g4 b k g5 -> k = Done \/ k = Cont ->
    runs_items (ctx_pop g5) t x hn nx b k' g6 -> runs_items g t x hn nx b k' g6
with runs_select : ctx -> expr -> list (expr * list stmt) -> list stmt -> obj -> ending -> ctx -> Prop :=
| select_throw g e c cs d o g1 : ev g e o T g1 -> runs_select g e (c :: cs) d o Thr g1
| select_stop g e cs d o v k k' g1 g2 :
    runs_scrutinee g e cs o v g1 -> runs_cases g1 v cs d k g2 ->
    ((k = Done \/ k = Brk) /\ k' = Done) \/ ((k = Ret \/ k = Thr) /\ k' = k) ->
    runs_select g e cs d o k' g2
| select_again g e cs d o v k' g1 g2 g3 :
    runs_scrutinee g e cs o v g1 -> runs_cases g1 v cs d Cont g2 ->
    runs_select g2 e cs d v k' g3 -> runs_select g e cs d o k' g3
with runs_scrutinee : ctx -> expr -> list (expr * list stmt) -> obj -> obj -> ctx -> Prop :=
| scrutinee_unused g e o : runs_scrutinee g e [] o o g
| scrutinee g e c cs o v g1 : ev g e o (V v) g1 -> runs_scrutinee g e (c :: cs) o v g1
(* the first case whose value equals the switch value, else the default block *)
with runs_cases : ctx -> obj -> list (expr * list stmt) -> list stmt -> ending -> ctx -> Prop :=
| cases_default g v d k g1 : runs_block g d k g1 -> runs_cases g v [] d k g1
| cases_throw g v e b cs d g1 : ev g e anon T g1 -> runs_cases g v ((e, b) :: cs) d Thr g1
| cases_equal g v e b cs d w k g1 g2 :
    ev g e anon (V w) g1 -> compare_op F CEq v w = Ok true -> runs_block g1 b k g2 ->
    runs_cases g v ((e, b) :: cs) d k g2
| cases_next g v e b cs d w k g1 g2 :
    ev g e anon (V w) g1 -> compare_op F CEq v w = Ok false -> runs_cases g1 v cs d k g2 ->
    runs_cases g v ((e, b) :: cs) d k g2.
End Spec.

(** The interpreter state that shows context [g] in its top frame, above the frames [fs]. *)
Definition embed (g : ctx) (fs : list frame) (f : flow) : st := St (Frame (x_env g) (x_ret g) :: fs) (x_world g) f.
Definition flow_of (k : ending) : flow :=
  match k with Done => FNormal | Brk => FBreak | Cont => FContinue | Ret => FReturn | Thr => FThrow end.

(** ** Plain programs: no for, foreach or exit, no assignment used as an expression, no new,
    no !& and !|; break and continue stand inside loops or switches. *)
Fixpoint plain_expr (e : expr) : bool :=
  match e with
  | ELit _ | EVar _ | EStep _ _ => true
  | EBin _ a b | EElvis a b => plain_expr a && plain_expr b
  | EBool op a b => match op with NAND | NOR => false | _ => plain_expr a && plain_expr b end
  | EUn _ a | ECast _ a => plain_expr a
  | ETern c a b => plain_expr c && plain_expr a && plain_expr b
  | ECall _ args => forallb plain_expr args
  | EAssign _ _ | ENew _ _ => false
  end.
Fixpoint plain_stmt (inside : bool) (s : stmt) : bool :=
  match s with
  | SSkip | SReturn None | SThrow None | SDecl _ _ None => true
  | SExpr e | SAssert e | SAssign _ e | SDelete e | SPrint e | SReturn (Some e) | SThrow (Some e) | SDecl _ _ (Some e) => plain_expr e
  | SBlock l => forallb (plain_stmt inside) l
  | SBreak | SContinue => inside
  | SIf c a b => plain_expr c && plain_stmt inside a && plain_stmt inside b
  | SSwitch e cs d =>
      plain_expr e && forallb (fun c => match c with (ce, b) => plain_expr ce && forallb (plain_stmt true) b end) cs &&
      forallb (plain_stmt true) d
  | STry b cs fin =>
      forallb (plain_stmt inside) b && forallb (fun c => match c with (_, h) => forallb (plain_stmt inside) h end) cs &&
      match fin with Some l => forallb (plain_stmt inside) l | None => true end
  | SWhile c b => plain_expr c && plain_stmt true b
  | SExit _ | SFor _ _ _ _ | SForeach _ _ _ _ _ _ _ => false
  end.
Definition plain_prog (P : prog) : Prop :=
  forall f m, In (f, m) (p_methods P) -> forallb (plain_stmt false) (m_body m) = true.

(** No exit statement anywhere in the statement; a for loop only if [loops]; a foreach loop only as an element of a statement list ([listed]), over a
    collection given by a variable or a call and over iterator methods with [quiet] names. *)
Definition direct (e : option expr) : bool := match e with None | Some (ELit _) | Some (EVar _) | Some (ECall _ _) => true | _ => false end.
Fixpoint tidy (loops : bool) (quiet : str -> bool) (listed : bool) (s : stmt) : bool :=
  match s with
  | SExit _ => false
  | SFor i _ it b => loops && tidy loops quiet false i && tidy loops quiet false it && tidy loops quiet false b
  | SForeach _ _ e gi hn nx b => listed && direct e && quiet gi && quiet hn && quiet nx && tidy loops quiet false b
  | SBlock l => forallb (tidy loops quiet true) l
  | SIf _ a b => tidy loops quiet false a && tidy loops quiet false b
  | SSwitch _ cs d => forallb (fun c => match c with (_, b) => forallb (tidy loops quiet true) b end) cs && forallb (tidy loops quiet true) d
  | STry b cs fin =>
      forallb (tidy loops quiet true) b && forallb (fun c => match c with (_, h) => forallb (tidy loops quiet true) h end) cs &&
      match fin with Some l => forallb (tidy loops quiet true) l | None => true end
  | SWhile _ b => tidy loops quiet false b
  | _ => true
  end.
Definition tidy_prog (loops : bool) (quiet : str -> bool) (P : prog) : Prop :=
  forall f m, In (f, m) (p_methods P) \/ In (f, m) (p_ctors P) -> forallb (tidy loops quiet true) (m_body m) = true.
(** A call without arguments of a method with one of these names never ends in an exception. *)
Definition never_throw (P : prog) (quiet : str -> bool) : Prop :=
  forall f, quiet f = true -> forall n dst s k s', s_flow s = FNormal -> call P n f [] dst s <> (Raise k, s').
(** The number of active scopes of every frame, innermost frame first. *)
Definition scope_counts (s : st) : list nat := map (fun f => length (fr_scopes f)) (s_frames s).
