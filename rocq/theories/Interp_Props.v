(** Properties C28-C32: boolean operators, structured control flow, switch, try, scopes. *)
From Coq Require Import Floats.SpecFloat.
From Verif Require Import Base Base_Proofs Text_Model Tok_Model TypeTable TypeSys_Model Value_Model Interp_Model Interp_Spec Interp_Eqs Interp_Proofs Interp_Back Interp_Hoare Interp_Mono Gen_Model Gen_Spec Gen_Proofs Gen_Props Interp_Balance Flow_Spec Flow_Proofs.

(** ** C28 *)
(** When the left operand decides, the right one is not evaluated: it may be any expression. *)
Theorem C28_short_circuit P a d s l s1 : evaluates P a anon s l s1 ->
  (is_true l = false -> forall b, evaluates P (EBool AND a b) d s (boolean false) s1) /\
  (is_true l = true -> forall b, evaluates P (EBool OR a b) d s (boolean true) s1).
Proof. intros [n H]. split; intros Hl b; exists (S n); rewrite eval_S, (bind_val _ _ _ _ _ H); cbn; by rewrite Hl. Qed.
Print Assumptions C28_short_circuit.
(** Otherwise both are evaluated, left to right, and the result is the conjunction or disjunction. *)
Theorem C28_truth_table P a b d s l s1 r s2 : evaluates P a anon s l s1 -> evaluates P b anon s1 r s2 ->
  (is_true l = true -> evaluates P (EBool AND a b) d s (boolean (is_true l && is_true r)) s2) /\
  (is_true l = false -> evaluates P (EBool OR a b) d s (boolean (is_true l || is_true r)) s2).
Proof.
  intros [n1 H1] [n2 H2]. up (n1 + n2).
  split; intros Hl; exists (S (n1 + n2)); rewrite eval_S, (bind_val _ _ _ _ _ H1); cbn; rewrite Hl; cbn; by rewrite (bind_val _ _ _ _ _ H2).
Qed.
Print Assumptions C28_truth_table.
(** An exception in an operand that is evaluated is an exception of the whole. *)
Theorem C28_exceptions P op a b d s f s1 :
  (cut_short P a anon s f s1 -> cut_short P (EBool op a b) d s f s1) /\
  (forall l s0, evaluates P a anon s l s0 -> cut_short P b anon s0 f s1 ->
     (op = AND /\ is_true l = true \/ op = OR /\ is_true l = false) -> cut_short P (EBool op a b) d s f s1).
Proof.
  split.
  - intros [n H]. exists (S n). by rewrite eval_S, (bind_raise _ _ _ _ _ H).
  - intros l s0 [n1 H1] [n2 H2] [[-> Hl]|[-> Hl]]; up (n1 + n2); exists (S (n1 + n2)); rewrite eval_S, (bind_val _ _ _ _ _ H1); cbn; rewrite Hl; cbn;
      by rewrite (bind_raise _ _ _ _ _ H2).
Qed.
Print Assumptions C28_exceptions.
(** The negated forms are right when the left operand decides, and when the operands agree. *)
Theorem C28_negated_partial P a b d s l s1 : evaluates P a anon s l s1 ->
  (is_true l = false -> evaluates P (EBool NAND a b) d s (boolean true) s1) /\
  (is_true l = true -> evaluates P (EBool NOR a b) d s (boolean false) s1) /\
  (forall r s2, evaluates P b anon s1 r s2 -> is_true r = is_true l ->
     (is_true l = true -> evaluates P (EBool NAND a b) d s (boolean (negb (is_true l && is_true r))) s2) /\
     (is_true l = false -> evaluates P (EBool NOR a b) d s (boolean (negb (is_true l || is_true r))) s2)).
Proof.
  intros [n1 H1]. split; [|split].
  - intros Hl. exists (S n1). rewrite eval_S, (bind_val _ _ _ _ _ H1). cbn. by rewrite Hl.
  - intros Hl. exists (S n1). rewrite eval_S, (bind_val _ _ _ _ _ H1). cbn. by rewrite Hl.
  - intros r s2 [n2 H2] Hr. up (n1 + n2). split; intros Hl; exists (S (n1 + n2)); rewrite eval_S, (bind_val _ _ _ _ _ H1); cbn; rewrite Hl; cbn;
      rewrite (bind_val _ _ _ _ _ H2), Hr, Hl; done.
Qed.
Print Assumptions C28_negated_partial.
(** Refuted in general: [true !& false] is false, [false !| true] is true. *)
Definition bool_lit (b : bool) : expr := ELit (boolean b).
Theorem C28_nand_refuted : exists s s', evaluates (ex_prog []) (EBool NAND (bool_lit true) (bool_lit false)) anon s (boolean false) s'.
Proof. exists (start []). eexists. exists 3%nat. vm_compute. reflexivity. Qed.
Print Assumptions C28_nand_refuted.
Theorem C28_nor_refuted : exists s s', evaluates (ex_prog []) (EBool NOR (bool_lit false) (bool_lit true)) anon s (boolean true) s'.
Proof. exists (start []). eexists. exists 3%nat. vm_compute. reflexivity. Qed.
Print Assumptions C28_nor_refuted.
(** The hypotheses are met by an operand with a side effect: [(x = true)] and [(x = false)]. *)
Definition ex_state : st := St [Frame [[($"x", boolean false)]] anon] (World [] None [] 1) FNormal.
Example C28_hypotheses_met :
  (exists s1, evaluates (ex_prog []) (EAssign ($"x") (bool_lit true)) anon ex_state (boolean true) s1 /\ s1 <> ex_state) /\
  (exists s1, evaluates (ex_prog []) (EUn UNot (EVar ($"x"))) anon ex_state (boolean true) s1) /\
  (exists s1, cut_short (ex_prog []) (EVar ($"y")) anon ex_state FThrow s1).
Proof. split; [|split]; eexists; [split|..]; try (exists 4%nat; vm_compute; reflexivity). done. Qed.

(** ** C29 *)
(** Results do not depend on the fuel of the model: more fuel gives the same result, and a statement has one result. *)
Theorem C29_fuel_irrelevant P n n' t s r s' : visit P n t s = (r, s') -> r <> NoFuel -> (n <= n')%nat -> visit P n' t s = (r, s').
Proof. intros. by eapply visit_up. Qed.
Print Assumptions C29_fuel_irrelevant.
Theorem C29_deterministic P t s s1 s2 : executes P t s s1 -> executes P t s s2 -> s1 = s2.
Proof. intros [n1 H1] [n2 H2]. up (n1 + n2). congruence. Qed.
Print Assumptions C29_deterministic.

(** A block opens a scope, runs its statements in order up to the first that does not end normally, and closes the scope. *)
Theorem C29_block P l f r w s' : executes P (SBlock l) (St (f :: r) w FNormal) s' <->
  exists s1, in_order P l (St (Frame ([] :: fr_scopes f) (fr_ret f) :: r) w FNormal) s1 /\ left_scope s1 s'.
Proof.
  split.
  - intros [[|[|n]] H]; [by rewrite visit_0 in H|by rewrite visit_S, block_0 in H|]. rewrite visit_S, block_S in H.
    apply bind_inv in H as ([] & s1 & [= <-] & H). apply bind_inv in H as ([] & s2 & H2 & H). exists s2. split; [apply process_order; by exists n|].
    unfold pop_scope in H. destruct (s_frames s2) as [|[[|sc l0] rv] r2] eqn:E; try done. injection H as <-. do 4 eexists. by rewrite E.
  - intros (s1 & H1 & (sc & l0 & rv & r2 & E & ->)). apply process_order in H1 as [n H1]. exists (S (S n)). rewrite visit_S, block_S.
    unfold bind, push_scope. cbn. rewrite H1. unfold pop_scope. by rewrite E.
Qed.
Print Assumptions C29_block.
(** In particular nothing after the first such statement is executed. *)
Theorem C29_rest_not_executed P l l' s s' : in_order P l s s' -> s_flow s' <> FNormal -> in_order P (l ++ l') s s'.
Proof.
  intros H Hf. induction H as [s|t l s Hs|t l s s1 s2 Hs Ht Hl IH]; cbn.
  - destruct l'; [constructor|by constructor].
  - by constructor.
  - econstructor; eauto.
Qed.
Print Assumptions C29_rest_not_executed.
(** A while loop: see [rounds]. break and continue are absorbed, everything else passes through. *)
Theorem C29_while P c b s s' : executes P (SWhile c b) s s' <-> rounds P c b anon s s'.
Proof.
  rewrite <- while_rounds. split.
  - intros [[|n] H]; [by rewrite visit_0 in H|]. rewrite visit_S in H. by exists n.
  - intros [n H]. exists (S n). by rewrite visit_S.
Qed.
Print Assumptions C29_while.
Theorem C29_if P c a b s s' : executes P (SIf c a b) s s' <->
  (exists v s1, evaluates P c anon s v s1 /\ executes P (if is_true v then a else b) s1 s') \/
  (exists f s1, cut_short P c anon s f s1 /\ s' = with_flow s1 f).
Proof.
  split.
  - intros [[|n] H]; [by rewrite visit_0 in H|]. rewrite visit_S in H. apply try_inv in H as [(v & s1 & H1 & H)|(f & s1 & H1 & _ & ->)].
    + left. exists v, s1. split; [by exists n|]. exists n. by destruct (is_true v).
    + right. exists f, s1. split; [by exists n|done].
  - intros [(v & s1 & [n1 H1] & [n2 H2])|(f & s1 & [n1 H1] & ->)].
    + up (n1 + n2). exists (S (n1 + n2)). rewrite visit_S, (try_val _ _ _ _ _ _ H1). by destruct (is_true v).
    + exists (S n1). by rewrite visit_S, (try_raise _ _ _ _ _ _ H1).
Qed.
Print Assumptions C29_if.
(** In a program the generator accepts, no loop or switch ends by break or continue. *)
Definition absorbs (t : stmt) : Prop :=
  match t with SWhile _ _ | SFor _ _ _ _ | SForeach _ _ _ _ _ _ _ | SSwitch _ _ _ => True | _ => False end.
Theorem C29_jumps_absorbed ty P inside t n s s' : accepted_prog ty P -> absorbs t -> placed inside t = true -> s_flow s = FNormal ->
  visit P n t s = (Val tt, s') -> s_flow s' = FNormal \/ leaving (s_flow s').
Proof.
  intros HP Ha Hp Hs H. assert (placed false t = true) as Hpf by (destruct t; done).
  pose proof (j_visit P n (jumps_ok P (accepted_all_placed _ _ HP) n) false t Hpf s) as Hj. unfold on, nj in Hj. rewrite Hs in Hj.
  specialize (Hj ltac:(done)). rewrite H in Hj. unfold J, leaving in *. destruct Hj as [Hj|Hj]; [done|]. unfold nj in Hj. destruct (s_flow s'); naive_solver.
Qed.
Print Assumptions C29_jumps_absorbed.
(** [while (true) { x = !x; if (x) { continue; } else { break; } }] *)
Definition ex_while : stmt := SWhile (bool_lit true) (SBlock [SAssign ($"x") (EUn UNot (EVar ($"x"))); SIf (EVar ($"x")) (SBlock [SContinue]) (SBlock [SBreak])]).
Example C29_hypotheses_met : placed false ex_while = true /\ accepted_prog ex_ty (ex_prog []) /\ executes (ex_prog []) ex_while ex_state ex_state.
Proof. split; [done|]. split; [by intros f m [[]|[]]|]. exists 20%nat. vm_compute. reflexivity. Qed.

(** Whole programs: the structured semantics of Interp_Spec is what the interpreter computes
    (missing: the situations listed there, which are refuted below or in C31, C32). *)
Theorem C29_structured_semantics_partial P g t k g' : runs P Core g t k g' ->
  forall fs, executes P t (embed g fs FNormal) (embed g' fs (flow_of k)).
Proof. intros H fs. apply (fwd P Core ltac:(done)) in H as [_ [N H]]. exists N. by apply (H N). Qed.
Print Assumptions C29_structured_semantics_partial.
Lemma promise P :
  (forall g e d r g', ev P Core g e d r g' -> ev P Promise g e d r g') /\
  (forall g es r g', evs P Core g es r g' -> evs P Promise g es r g') /\
  (forall g f vs d r g', calls P Core g f vs d r g' -> calls P Promise g f vs d r g') /\
  (forall g s k g', runs P Core g s k g' -> runs P Promise g s k g') /\
  (forall g k cs k' g', runs_handler P Core g k cs k' g' -> runs_handler P Promise g k cs k' g') /\
  (forall g k fin k' g', runs_finally P Core g k fin k' g' -> runs_finally P Promise g k fin k' g') /\
  (forall g l k g', runs_list P Core g l k g' -> runs_list P Promise g l k g') /\
  (forall g l k g', runs_block P Core g l k g' -> runs_block P Promise g l k g') /\
  (forall g c b d k g', runs_loop P Core g c b d k g' -> runs_loop P Promise g c b d k g') /\
  (forall g c it b d k g', runs_rounds P Core g c it b d k g' -> runs_rounds P Promise g c it b d k g') /\
  (forall g c d v g', runs_cond P Core g c d v g' -> runs_cond P Promise g c d v g') /\
  (forall g t x hn nx b k g', runs_items P Core g t x hn nx b k g' -> runs_items P Promise g t x hn nx b k g') /\
  (forall g e cs d o k g', runs_select P Core g e cs d o k g' -> runs_select P Promise g e cs d o k g') /\
  (forall g e cs o v g', runs_scrutinee P Core g e cs o v g' -> runs_scrutinee P Promise g e cs o v g') /\
  (forall g v cs d k g', runs_cases P Core g v cs d k g' -> runs_cases P Promise g v cs d k g').
Proof.
  apply spec_mut; intros; try discriminate; try (by econstructor; eauto).
  eapply ev_new; eauto. by destruct H5 as [?|[? ?]]; [left|].
Qed.
(** Conversely, in a plain program whatever the interpreter does is what the full semantics promises. *)
Theorem C29_plain_programs_partial P inside t n g fs s' : plain_prog P -> plain_stmt inside t = true ->
  visit P n t (embed g fs FNormal) = (Val tt, s') ->
  exists k g', runs P Promise g t k g' /\ s' = embed g' fs (flow_of k) /\ (inside = false -> k <> Brk /\ k <> Cont).
Proof.
  intros HP Ht H.
  pose proof (b_visit P n (back_ok P HP n) inside t g fs (fun _ s' => exists k g', runs P Promise g t k g' /\ s' = embed g' fs (flow_of k) /\ (inside = false -> k <> Brk /\ k <> Cont)) (fun _ _ => True) Ht) as Hb.
  unfold bk in Hb. rewrite H in Hb. apply Hb. intros k g' He Hr. exists k, g'. split; [by apply (promise P)|]. split; [done|].
  intros ->. by destruct He.
Qed.
Print Assumptions C29_plain_programs_partial.
(** [bool odd(int n) { if (n == 0) { return false; } return !odd(n - 1); }] called in a loop. *)
Definition ex_odd : method := Method t_bool [(t_int, $"n")] [
  SIf (EBool COMPARE_EQUAL (EVar ($"n")) (num 0)) (SBlock [SReturn (Some (bool_lit false))]) SSkip;
  SReturn (Some (EUn UNot (ECall ($"odd") [EBin MATH_SUBTRACT (EVar ($"n")) (num 1)])))].
Definition ex_odd_loop : stmt := SWhile (EUn UNot (EVar ($"x"))) (SBlock [SAssign ($"x") (ECall ($"odd") [num 3])]).
Example C29_plain_hypotheses_met : plain_prog (ex_prog [($"odd", ex_odd)]) /\ plain_stmt false ex_odd_loop = true /\
  exists s', executes (ex_prog [($"odd", ex_odd)]) ex_odd_loop ex_state s' /\ s' <> ex_state.
Proof.
  split; [by intros f m [[= <- <-]|[]]|]. split; [done|]. eexists. split; [exists 80%nat; vm_compute; reflexivity|done].
Qed.

(** Refuted in general. A return in a constructor also ends the method that creates the object:
    [main() { new C(); print("x"); }] with [C() { return; }] prints nothing. *)
Definition ex_ctor_prog : prog := Prog [] [($"C", Method t_void [] [SReturn None])] (fun _ _ => None) ex_inst ex_io.
Definition ex_ctor_main : list stmt := [SExpr (ENew ($"C") []); SPrint (text ($"x"))].
Definition ex_ctx : ctx := Ctx [[]] anon (World [] None [] 1).
Theorem C29_constructor_return_refuted :
  (exists g', runs_list ex_ctor_prog Promise ex_ctx ex_ctor_main Done g' /\ w_out (x_world g') = [$"x"]) /\
  (exists s', in_order ex_ctor_prog ex_ctor_main (embed ex_ctx [] FNormal) s' /\ w_out (s_world s') = []).
Proof.
  split.
  - eexists. split.
    + eapply list_next.
      * eapply runs_expr. eapply ev_new; [constructor|reflexivity|reflexivity| |by right]. eapply list_stop; [constructor|done].
      * eapply list_next; [eapply runs_print; constructor|constructor].
    + vm_compute. reflexivity.
  - eexists. split; [apply process_order; exists 20%nat; vm_compute; reflexivity|done].
Qed.
Print Assumptions C29_constructor_return_refuted.
(** An exception in a constructor is lost when the new object is an argument of an extension method:
    [main() { f(new C()); print("x"); }] with [C() { throw 1; }] calls f with the object and prints. *)
Definition ex_throw_prog : prog :=
  Prog [] [($"C", Method t_void [] [SThrow (Some (num 1))])] (fun f _ => if str_eqb f ($"f") then Some XVoid else None) ex_inst ex_io.
Definition ex_throw_main : list stmt := [SExpr (ECall ($"f") [ENew ($"C") []]); SPrint (text ($"x"))].
Theorem C29_constructor_exception_refuted :
  (exists g', runs_list ex_throw_prog Promise ex_ctx ex_throw_main Thr g' /\ w_out (x_world g') = []) /\
  (exists s', in_order ex_throw_prog ex_throw_main (embed ex_ctx [] FNormal) s' /\ s_flow s' = FNormal /\ w_out (s_world s') = [$"x"]).
Proof.
  split.
  - eexists. split.
    + eapply list_stop; [|done]. eapply runs_expr_throw. eapply ev_call_args. eapply evs_first.
      eapply ev_new_throw; [done|constructor|reflexivity|reflexivity|]. eapply list_stop; [|done]. eapply runs_throw. constructor.
    + vm_compute. reflexivity.
  - eexists. split; [apply process_order; exists 20%nat; vm_compute; reflexivity|done].
Qed.
Print Assumptions C29_constructor_exception_refuted.
(** An exception in the initialisation of a for loop does not stop the loop: [for (boom(); true; ) print("x");] prints. *)
Definition ex_boom : prog := ex_prog [($"boom", Method t_int [] [SThrow (Some (num 1))])].
Definition ex_for_init : stmt := SFor (SExpr (ECall ($"boom") [])) (Some (bool_lit true)) SSkip (SPrint (text ($"x"))).
Theorem C29_for_init_refuted :
  (exists g', runs ex_boom Promise ex_ctx ex_for_init Thr g' /\ w_out (x_world g') = []) /\
  (exists s', executes ex_boom ex_for_init (embed ex_ctx [] FNormal) s' /\ w_out (s_world s') = [$"x"]).
Proof.
  split.
  - eexists. split.
    + eapply runs_for_init; [done| |done]. eapply runs_expr_throw. eapply ev_call; [constructor|].
      eapply calls_method_throw; [reflexivity|reflexivity|]. eapply list_stop; [|done]. eapply runs_throw. constructor.
    + vm_compute. reflexivity.
  - eexists. split; [exists 20%nat; vm_compute; reflexivity|done].
Qed.
Print Assumptions C29_for_init_refuted.
(** An exception in an assignment that is used as an expression does not stop the statement it stands in: [print(x = boom());] prints. *)
Definition ex_assign_ctx : ctx := Ctx [[($"x", mk t_int (AInt 5))]] anon (World [] None [] 1).
Definition ex_assign_print : stmt := SPrint (EAssign ($"x") (ECall ($"boom") [])).
Theorem C29_assignment_exception_refuted :
  (exists g', runs ex_boom Promise ex_assign_ctx ex_assign_print Thr g' /\ w_out (x_world g') = []) /\
  (exists s', executes ex_boom ex_assign_print (embed ex_assign_ctx [] FNormal) s' /\ length (w_out (s_world s')) = 1%nat).
Proof.
  split.
  - eexists. split.
    + eapply runs_print_throw. eapply ev_assign_throw; [done|reflexivity|]. eapply ev_call; [constructor|].
      eapply calls_method_throw; [reflexivity|reflexivity|]. eapply list_stop; [|done]. eapply runs_throw. constructor.
    + vm_compute. reflexivity.
  - eexists. split; [exists 20%nat; vm_compute; reflexivity|done].
Qed.
Print Assumptions C29_assignment_exception_refuted.

(** ** C30 *)
(** A switch does exactly what [selects] says: the first equal case, otherwise the default; break ends it. *)
Theorem C30_switch P e cs d s s' : executes P (SSwitch e cs d) s s' <-> selects P e cs d anon s s'.
Proof.
  rewrite <- switch_selects. split.
  - intros [[|n] H]; [by rewrite visit_0 in H|]. rewrite visit_S in H. by exists n.
  - intros [n H]. exists (S n). by rewrite visit_S.
Qed.
Print Assumptions C30_switch.
(** Spelled out: the first equal case runs, whatever follows it. *)
Theorem C30_first_equal_case P e pre ce b s v s0 s1 w s2 s3 :
  evaluates P e anon s v s0 -> misses P v pre s0 s1 -> evaluates P ce anon s1 w s2 -> compare_op (p_io P) CEq v w = Ok true ->
  executes_block P b s2 s3 -> s_flow s3 = FNormal \/ s_flow s3 = FBreak ->
  forall post d, executes P (SSwitch e (pre ++ (ce, b) :: post) d) s (with_flow s3 FNormal).
Proof.
  intros He Hm Hc Hw Hb Hf post d. apply C30_switch. eapply select_end; [left; split; [by destruct pre|done]|eapply chosen_case; eauto|done].
Qed.
Print Assumptions C30_first_equal_case.
Theorem C30_default P e cs d s v s0 s1 s2 :
  cs <> [] -> evaluates P e anon s v s0 -> misses P v cs s0 s1 -> executes_block P d s1 s2 -> s_flow s2 = FNormal \/ s_flow s2 = FBreak ->
  executes P (SSwitch e cs d) s (with_flow s2 FNormal).
Proof. intros. apply C30_switch. eapply select_end; [left; split; eauto|eapply chosen_default; eauto|done]. Qed.
Print Assumptions C30_default.
(** Without a default nothing is executed. *)
Theorem C30_no_default P e cs s v s0 f r w :
  cs <> [] -> evaluates P e anon s v s0 -> misses P v cs s0 (St (f :: r) w FNormal) -> executes P (SSwitch e cs []) s (St (f :: r) w FNormal).
Proof.
  intros Hne He Hm. apply (C30_default P e cs [] s v s0 _ (St (f :: r) w FNormal) Hne He Hm); [|by left].
  exists 2%nat. rewrite block_S. unfold bind, push_scope. cbn. rewrite process_S. by destruct f.
Qed.
Print Assumptions C30_no_default.
(** Leaving flows pass through the switch unchanged. *)
Theorem C30_leaving P e pre ce b s v s0 s1 w s2 s3 :
  evaluates P e anon s v s0 -> misses P v pre s0 s1 -> evaluates P ce anon s1 w s2 -> compare_op (p_io P) CEq v w = Ok true ->
  executes_block P b s2 s3 -> leaving (s_flow s3) ->
  forall post d, executes P (SSwitch e (pre ++ (ce, b) :: post) d) s s3.
Proof.
  intros He Hm Hc Hw Hb Hf post d. apply C30_switch. eapply select_leave; [left; split; [by destruct pre|done]|eapply chosen_case; eauto|done].
Qed.
Print Assumptions C30_leaving.
(** [switch (2) { case 1: { print("a"); } case 2: { print("b"); break; print("c"); } case 2: { print("d"); } default: { print("e"); } }] *)
Definition ex_cases : list (expr * list stmt) := [
  (num 1, [SPrint (text ($"a"))]); (num 2, [SPrint (text ($"b")); SBreak; SPrint (text ($"c"))]); (num 2, [SPrint (text ($"d"))])].
Example C30_hypotheses_met :
  (exists v s0 s1 s2 s3, evaluates ex_boom (num 2) anon ex_state v s0 /\ misses ex_boom v (firstn 1 ex_cases) s0 s1 /\
    evaluates ex_boom (num 2) anon s1 v s2 /\ compare_op ex_io CEq v v = Ok true /\
    executes_block ex_boom (snd (nth 1 ex_cases (num 0, []))) s2 s3 /\ s_flow s3 = FBreak /\ w_out (s_world s3) = [$"b"]) /\
  (exists v s0 s1, evaluates ex_boom (num 3) anon ex_state v s0 /\ misses ex_boom v ex_cases s0 s1).
Proof.
  split.
  - do 5 eexists. split; [exists 2%nat; vm_compute; reflexivity|]. split.
    { eapply misses_cons; [exists 2%nat; vm_compute; reflexivity|vm_compute; reflexivity|constructor]. }
    split; [exists 2%nat; vm_compute; reflexivity|]. split; [vm_compute; reflexivity|]. split; [exists 9%nat; vm_compute; reflexivity|done].
  - do 3 eexists. split; [exists 2%nat; vm_compute; reflexivity|].
    repeat (eapply misses_cons; [exists 2%nat; vm_compute; reflexivity|vm_compute; reflexivity|]). constructor.
Qed.

(** ** C31 *)
(** A try statement runs its body, then its catch clauses (see [handled]), then its finally block
    (see [finished]). Missing for the full statement: exit, see below. *)
Theorem C31_try_partial P b cs fin s s' : executes P (STry b cs fin) s s' <->
  exists s1 s2, executes_block P b s s1 /\ handled P cs s1 s2 /\ finished P fin s2 s'.
Proof. apply try_executes. Qed.
Print Assumptions C31_try_partial.
(** Spelled out: without finally, an exception is handled by the first accepting clause. *)
Theorem C31_first_accepting_clause P b pre d h post s s1 s2 s3 s4 :
  executes_block P b s s1 -> s_flow s1 = FThrow ->
  Forall (fun c => ~ accepting P (w_exn (s_world s1)) c) pre -> accepting P (w_exn (s_world s1)) (d, h) ->
  entered P d (w_exn (s_world s1)) s1 s2 -> executes_block P h s2 s3 -> left_scope s3 s4 ->
  executes P (STry b (pre ++ (d, h) :: post) None) s s4.
Proof.
  intros Hb Hf Hp Ha He Hh Hl. apply try_executes. exists s1, s4. split; [done|]. split; [|by apply finished_none].
  eapply handled_by; eauto. by exists pre, post.
Qed.
Print Assumptions C31_first_accepting_clause.
(** An exception that no clause accepts goes on after the finally block, unless that ends otherwise itself. *)
Theorem C31_unaccepted_goes_on P b cs l s s1 s2 :
  executes_block P b s s1 -> s_flow s1 = FThrow -> cs <> [] -> Forall (fun c => ~ accepting P (w_exn (s_world s1)) c) cs ->
  executes_block P l (with_flow s1 FNormal) s2 ->
  executes P (STry b cs (Some l)) s (if match s_flow s2 with FNormal => true | _ => false end then with_flow s2 FThrow else s2).
Proof.
  intros Hb Hf Hne Hn Hl. apply try_executes. exists s1, s1. split; [done|]. split; [by apply handled_not_accepted|].
  destruct (s_flow s2) eqn:E; [rewrite <- Hf; by eapply finished_pending|..]; (eapply finished_own; [done|done|congruence]).
Qed.
Print Assumptions C31_unaccepted_goes_on.
(** Whatever the body and the handler did, the finally block runs exactly once: the final state is the one it leaves, up to the flow. *)
Theorem C31_finally_once P b cs l s s' : executes P (STry b cs (Some l)) s s' ->
  exists s1 s2 s3, executes_block P b s s1 /\ handled P cs s1 s2 /\ executes_block P l (with_flow s2 FNormal) s3 /\
    s_frames s' = s_frames s3 /\ s_world s' = s_world s3 /\
    s_flow s' = match s_flow s3 with FNormal => s_flow s2 | f => f end.
Proof.
  intros H. apply try_executes in H as (s1 & s2 & Hb & Hh & Hf). exists s1, s2.
  remember (Some l) as fin eqn:Ef. destruct Hf as [s2 ->|s2 l' s3 -> He Hn|s2 l' s3 -> He Hn]; [done|..]; injection Ef as ->; exists s3; repeat split; try done.
  - by rewrite Hn.
  - by destruct (s_flow s3).
Qed.
Print Assumptions C31_finally_once.
(** [try { throw 1; } catch (string e) { print("s"); } catch (int e) { print(e); } catch { } finally { print("f"); return; }] *)
Definition ex_try : stmt := STry [SThrow (Some (num 1))]
  [(Some (t_string, $"e"), [SPrint (text ($"s"))]); (Some (t_int, $"e"), [SPrint (EVar ($"e")); SPrint (text ($"i"))]); (None, [])] (Some [SPrint (text ($"f")); SReturn None]).
Example C31_hypotheses_met : exists s', executes (ex_prog []) ex_try ex_state s' /\ s_flow s' = FReturn /\ length (w_out (s_world s')) = 3%nat /\ nth 2 (w_out (s_world s')) [] = $"f".
Proof. eexists. split; [exists 20%nat; vm_compute; reflexivity|done]. Qed.
(** Refuted in general. exit does not run the finally block: [try { exit 1; } finally { print("f"); }]. *)
Theorem C31_exit_refuted : exists n s', visit (ex_prog []) n (STry [SExit (num 1)] [] (Some [SPrint (text ($"f"))])) ex_state = (Raise FExit, s') /\ w_out (s_world s') = [].
Proof. exists 20%nat. eexists. split; [vm_compute; reflexivity|done]. Qed.
Print Assumptions C31_exit_refuted.
(** A try statement without catch clauses swallows the exception: [try { throw 1; } finally { }] ends normally. *)
Theorem C31_no_clauses_refuted : exists s', executes (ex_prog []) (STry [SThrow (Some (num 1))] [] (Some [])) ex_state s' /\ s_flow s' = FNormal.
Proof. eexists. split; [exists 20%nat; vm_compute; reflexivity|done]. Qed.
Print Assumptions C31_no_clauses_refuted.
(** A finally block that handles an exception of its own replaces the pending exception:
    [try { throw 1; } catch (string e) { } finally { try { throw "x"; } catch (string e) { } }] goes on throwing "x". *)
Theorem C31_pending_exception_refuted : exists s',
  executes (ex_prog []) (STry [SThrow (Some (num 1))] [(Some (t_string, $"e"), [])]
    (Some [STry [SThrow (Some (text ($"x")))] [(Some (t_string, $"e"), [])] None])) ex_state s' /\
  s_flow s' = FThrow /\ w_exn (s_world s') = Some (mk t_string (AStr ($"x"))).
Proof. eexists. split; [exists 20%nat; vm_compute; reflexivity|done]. Qed.
Print Assumptions C31_pending_exception_refuted.

(** ** C32 *)
(** In a program without for and exit whose foreach loops stand in statement lists and use iterator methods that do not throw, every statement leaves
    the number of active scopes of every frame as it was, however it ends: normally, by break, continue, return or throw. *)
Theorem C32_scopes_balanced_partial P quiet t n s s' : tidy_prog false quiet P -> never_throw P quiet -> tidy false quiet true t = true -> s_flow s = FNormal ->
  visit P n t s = (Val tt, s') -> scope_counts s' = scope_counts s.
Proof.
  intros HP HQ Ht Hs H. pose proof (bl_visit_listed P false quiet n (balanced_ok P false quiet HP HQ n) t Ht s Hs) as Hb. rewrite H in Hb.
  destruct (scope_counts s), (scope_counts s'); cbn in Hb; try done. destruct Hb as [-> ->]. f_equal. lia.
Qed.
Print Assumptions C32_scopes_balanced_partial.
(** With for loops a statement still never closes a scope that it did not open, and it leaves scopes open at most in the running method's own frame. *)
Theorem C32_only_own_frame_partial P quiet t n s s' a r : tidy_prog true quiet P -> never_throw P quiet -> tidy true quiet true t = true -> s_flow s = FNormal ->
  visit P n t s = (Val tt, s') -> scope_counts s = a :: r -> exists k, scope_counts s' = (a + k)%nat :: r.
Proof.
  intros HP HQ Ht Hs H Hc. pose proof (bl_visit_listed P true quiet n (balanced_ok P true quiet HP HQ n) t Ht s Hs) as Hb. rewrite H, Hc in Hb.
  destruct (scope_counts s') as [|b r']; cbn in Hb; [done|]. destruct Hb as [-> Hb]. exists (b - a)%nat. f_equal. lia.
Qed.
Print Assumptions C32_only_own_frame_partial.
(** Every expression, and so every method call, leaves the number of active scopes of every frame exactly as it was, also when it ends in an exception
    and when the called methods leave for loops by break, return or throw. *)
Theorem C32_calls_balanced_partial P quiet e dst n s : tidy_prog true quiet P -> never_throw P quiet ->
  (forall v s', eval P n e dst s = (Val v, s') -> scope_counts s' = scope_counts s) /\
  (forall f s', eval P n e dst s = (Raise f, s') -> scope_counts s' = scope_counts s).
Proof.
  intros HP HQ. pose proof (bl_eval P true quiet n (balanced_ok P true quiet HP HQ n) e dst s) as Hb. split; intros ? ? H; by rewrite H in Hb.
Qed.
Print Assumptions C32_calls_balanced_partial.
(** Nor does such a statement end in a C++ exception for control flow. *)
Theorem C32_no_raise_partial P loops quiet t n s f s' : tidy_prog loops quiet P -> never_throw P quiet -> tidy loops quiet true t = true -> s_flow s = FNormal ->
  visit P n t s <> (Raise f, s').
Proof. intros HP HQ Ht Hs H. pose proof (bl_visit_listed P loops quiet n (balanced_ok P loops quiet HP HQ n) t Ht s Hs) as Hb. by rewrite H in Hb. Qed.
Print Assumptions C32_no_raise_partial.
(** A for loop is balanced, too, when it ends because its condition is false and its steps end normally. *)
Theorem C32_for_partial P g i c it b k g' : runs P Core g (SFor i c it b) k g' ->
  forall fs s', executes P (SFor i c it b) (embed g fs FNormal) s' -> scope_counts s' = scope_counts (embed g fs FNormal).
Proof.
  intros H fs s' Hs. assert (s' = embed g' fs (flow_of k)) as -> by (eapply C29_deterministic; [done|by apply C29_structured_semantics_partial]).
  apply (fwd P Core ltac:(done)) in H as [[_ [[? _]|Hd]] _]; [done|]. unfold scope_counts, embed, depth in *. cbn. by rewrite Hd.
Qed.
Print Assumptions C32_for_partial.
(** A loop over an endless collection, left by break, in a method that is called from another one with a for loop that is left by return. *)
Definition ex_each : prog := ex_prog
  [($"iter", Method t_int [] [SReturn (Some (num 0))]); ($"more", Method t_bool [] [SReturn (Some (bool_lit true))]); ($"next", Method t_int [] [SReturn (Some (num 7))]);
   ($"f", Method t_int [] [SForeach t_int ($"x") None ($"iter") ($"more") ($"next") (SBlock [SPrint (EVar ($"x")); SBreak]); SReturn (Some (num 3))])].
Definition ex_quiet (f : str) : bool := str_eqb f ($"iter") || str_eqb f ($"more") || str_eqb f ($"next").
Example C32_hypotheses_met :
  (tidy_prog false ex_quiet ex_each /\ never_throw ex_each ex_quiet) /\
  (tidy false ex_quiet true (SPrint (ECall ($"f") [])) = true /\ exists s', executes ex_each (SPrint (ECall ($"f") [])) ex_state s' /\ w_out (s_world s') = [$"7"; $"3"]) /\
  (let t := SForeach t_int ($"x") None ($"iter") ($"more") ($"next") (SBlock [SThrow (Some (EVar ($"x")))]) in
   tidy false ex_quiet true t = true /\ exists s', executes ex_each t ex_state s' /\ s_flow s' = FThrow) /\
  (tidy_prog false ex_quiet ex_boom /\ never_throw ex_boom (fun _ => false) /\ tidy false ex_quiet true ex_try = true /\ exists s', executes ex_boom ex_try ex_state s').
Proof.
  split; [split|split; [|split]].
  - intros f m [Hm|[]]. cbn in Hm. by repeat destruct Hm as [[= <- <-]|Hm].
  - intros f Hf n dst s k s' Hs. assert (f = $"iter" \/ f = $"more" \/ f = $"next") as Hc.
    { unfold ex_quiet in Hf. rewrite !orb_true_iff in Hf. destruct Hf as [[Hf|Hf]|Hf]; apply str_eqb_eq in Hf; auto. }
    destruct s as [fs w fl]. cbn in Hs. subst fl. clear Hf. do 6 (destruct n as [|n]; [by destruct Hc as [->|[->| ->]]|]). destruct Hc as [->|[->| ->]]; done.
  - split; [done|]. eexists. split; [exists 30%nat; vm_compute; reflexivity|done].
  - split; [done|]. eexists. split; [exists 30%nat; vm_compute; reflexivity|done].
  - split; [by intros f m [[[= <- <-]|[]]|[]]|]. split; [done|]. split; [done|]. eexists. exists 20%nat. vm_compute. reflexivity.
Qed.
Definition ex_for : stmt := SFor (SDecl t_int ($"i") (Some (num 0))) (Some (EBool COMPARE_LESS (EVar ($"i")) (num 1))) (SExpr (EStep UInc ($"i"))) (SPrint (EVar ($"i"))).
Example C32_for_hypotheses_met : exists k g', runs ex_boom Core ex_ctx ex_for k g'.
Proof.
  do 2 eexists. eapply runs_for.
  - eapply runs_decl_init; [vm_compute; reflexivity|constructor|vm_compute; reflexivity|vm_compute; reflexivity].
  - eapply rounds_again.
    + eapply cond_some; [eapply ev_compare; [done..|constructor; vm_compute; reflexivity|constructor|vm_compute; reflexivity]|vm_compute; reflexivity].
    + eapply runs_print. constructor. vm_compute. reflexivity.
    + by left.
    + eapply runs_expr. eapply ev_step. { vm_compute. reflexivity. } { vm_compute. reflexivity. } { vm_compute. reflexivity. } { vm_compute. reflexivity. }
    + eapply rounds_end; [eapply ev_compare; [done..|constructor; vm_compute; reflexivity|constructor|vm_compute; reflexivity]|vm_compute; reflexivity].
  - done.
Qed.
(** Refuted in general: a for loop left by break keeps its scope. In [{ int x = 1; for (;;) { break; } } int x = 2;]
    the scope of the block is not closed, and the second declaration fails at run time. *)
Theorem C32_for_break_refuted :
  (exists s', executes ex_boom (SFor SSkip None SSkip (SBlock [SBreak])) (embed ex_ctx [] FNormal) s' /\
     scope_counts s' = [2%nat] /\ scope_counts (embed ex_ctx [] FNormal) = [1%nat]) /\
  (exists n s', process ex_boom n [SBlock [SDecl t_int ($"x") (Some (num 1)); SFor SSkip None SSkip (SBlock [SBreak])]; SDecl t_int ($"x") (Some (num 2))]
     (embed ex_ctx [] FNormal) = (Crash "DuplicateIdentifier", s')).
Proof. split; [eexists; split; [exists 20%nat; vm_compute; reflexivity|done]|]. exists 20%nat. eexists. vm_compute. reflexivity. Qed.
Print Assumptions C32_for_break_refuted.
(** Refuted for return as well: the finally block of [int i = 5; try { int i = 6; for ( ; ; ) { return; } } finally { print(i); }]
    prints the variable of the try block, where the rules of the language say that it prints 5. *)
Definition ex_loop_return : list stmt :=
  [SDecl t_int ($"i") (Some (num 5)); STry [SDecl t_int ($"i") (Some (num 6)); SFor SSkip None SSkip (SBlock [SReturn None])] [] (Some [SPrint (EVar ($"i"))])].
Theorem C32_return_finally_refuted :
  (exists g', runs_list ex_boom Promise ex_ctx ex_loop_return Ret g' /\ w_out (x_world g') = [$"5"]) /\
  (exists s', in_order ex_boom ex_loop_return (embed ex_ctx [] FNormal) s' /\ w_out (s_world s') = [$"6"]).
Proof.
  split.
  - eexists. split.
    + eapply list_next.
      { eapply runs_decl_init; [vm_compute; reflexivity|constructor|vm_compute; reflexivity|vm_compute; reflexivity]. }
      eapply list_stop; [|done]. eapply runs_try; [done| | |].
      * eapply block_scope, list_next; [eapply runs_decl_init; [vm_compute; reflexivity|constructor|vm_compute; reflexivity|vm_compute; reflexivity]|].
        eapply (list_stop _ _ _ _ _ Ret); [|done]. eapply runs_for; [|eapply rounds_leave; [done|apply cond_none| |by left]|done].
        -- constructor.
        -- apply runs_block_stmt, block_scope, list_stop; [constructor|done].
      * by apply handler_none.
      * eapply finally_done, block_scope, list_next; [|constructor]. eapply runs_print. constructor. vm_compute. reflexivity.
    + vm_compute. reflexivity.
  - eexists. split; [apply process_order; exists 30%nat; vm_compute; reflexivity|done].
Qed.
Print Assumptions C32_return_finally_refuted.
(** Refuted for foreach: an exception from an iterator method in a method that is called leaves the frame of that method on the stack.
    The try statement of the caller then closes the only scope of that frame instead of its own, and the next declaration of the caller finds no scope. *)
Definition ex_lost : prog := ex_prog
  [($"iter", Method t_int [] [SThrow (Some (num 1))]);
   ($"f", Method t_void [] [SForeach t_int ($"x") None ($"iter") ($"more") ($"next") SSkip])].
Theorem C32_foreach_throw_refuted :
  (exists s', executes ex_lost (STry [SExpr (ECall ($"f") [])] [(None, [])] None) (embed ex_ctx [] FNormal) s' /\ s_flow s' = FNormal /\
     scope_counts s' = [0%nat; 2%nat] /\ scope_counts (embed ex_ctx [] FNormal) = [1%nat]) /\
  (exists n s', process ex_lost n [STry [SExpr (ECall ($"f") [])] [(None, [])] None; SDecl t_int ($"y") None] (embed ex_ctx [] FNormal) = (Undef, s')).
Proof. split; [eexists; split; [exists 30%nat; vm_compute; reflexivity|]; vm_compute; done|]. exists 30%nat. eexists. vm_compute. reflexivity. Qed.
Print Assumptions C32_foreach_throw_refuted.
