(** C33, C34, C35: what the generator's checks guarantee about the interpreter. *)
From Coq Require Import Floats.SpecFloat.
From Verif Require Import Base Base_Proofs Text_Model Tok_Model TypeTable TypeSys_Model Value_Model Interp_Model Interp_Eqs Interp_Hoare Gen_Model Gen_Spec Gen_Proofs.

(** The compiler accepts method [m], declared with [throws] or not. *)
Definition accepted (ty : expr -> str) (thr : bool) (m : method) : Prop := exists g, gen_method ty (m_ret m) thr m = Ok g.
(** Every method and constructor of the program is accepted, and the initialisation and
    iteration statements of its for loops contain no break or continue of their own. *)
Definition accepted_prog (ty : expr -> str) (P : prog) : Prop :=
  forall f m, In (f, m) (p_methods P) \/ In (f, m) (p_ctors P) ->
    (exists thr, accepted ty thr m) /\ forallb plain_steps (m_body m) = true.

Lemma accepted_body ty thr m : accepted ty thr m -> exists g, fold_res (gen_stmt ty (m_ret m) false) (m_body m) (Gst FNormal []) = Ok g /\
  (thr = false -> g_thrown g = []).
Proof.
  intros [g H]. unfold gen_method in H. apply rbind_Ok in H as (g1 & E & H). apply gen_scope_inv in E.
  exists g1. split; [exact E|]. intros ->. case_bool_decide; [done|]. by simpl in H.
Qed.
Lemma accepted_placed ty thr m : accepted ty thr m -> forallb plain_steps (m_body m) = true -> forallb (placed false) (m_body m) = true.
Proof.
  intros Ha Hp. apply accepted_body in Ha as (g & Hg & _). eapply placed_list; [|done|exact Hg].
  apply Forall_forall. intros s _ a g1 g2. apply gen_placed.
Qed.
Lemma accepted_all_placed ty P : accepted_prog ty P -> all_placed P.
Proof.
  intros H. split; intros f m Hm; destruct (H f m ltac:(auto)) as [[thr Ha] Hp]; by eapply accepted_placed.
Qed.

(** C33. Run a method of an accepted program: however its body ends, no break or continue is
    left over for the caller. Missing: a break or continue inside the iteration statement of a
    for loop, see [C33_for_step_refuted]. *)
Theorem C33_jumps_stay_in_method_partial ty P f m n args dst s :
  accepted_prog ty P -> In (f, m) (p_methods P) \/ In (f, m) (p_ctors P) -> s_flow s = FNormal ->
  match execute P n m args dst s with
  | (Val _, s') => s_flow s' = FNormal \/ s_flow s' = FReturn \/ s_flow s' = FThrow \/ s_flow s' = FExit
  | (Raise k, _) => k = FThrow \/ k = FExit
  | _ => True
  end.
Proof.
  intros HP Hm Hs. pose proof (accepted_all_placed _ _ HP) as Hall.
  assert (forallb (placed false) (m_body m) = true) as Hpl by (destruct Hall, Hm; eauto).
  pose proof (j_exec P n (jumps_ok P Hall n) m args dst Hpl s) as H. unfold on, nj in H. rewrite Hs in H. specialize (H ltac:(done)).
  destruct (execute _ _ _ _ _ _) as [[r|k| | |] s']; try done. destruct (s_flow s'); naive_solver.
Qed.
Print Assumptions C33_jumps_stay_in_method_partial.

(** The same for a call in an expression: evaluating any expression of such a program ends
    normally or by an exception, and the statement that contains it goes on or stops accordingly. *)
Theorem C33_expressions_do_not_jump_partial ty P n e dst s :
  accepted_prog ty P -> s_flow s = FNormal ->
  match eval P n e dst s with
  | (Val _, s') => s_flow s' <> FBreak /\ s_flow s' <> FContinue
  | (Raise k, _) => k = FThrow \/ k = FExit
  | _ => True
  end.
Proof.
  intros HP Hs. pose proof (accepted_all_placed _ _ HP) as Hall.
  pose proof (j_eval P n (jumps_ok P Hall n) e dst s) as H. unfold on, nj in H. rewrite Hs in H. specialize (H ltac:(done)).
  by destruct (eval _ _ _ _ _) as [[r|k| | |] s'].
Qed.
Print Assumptions C33_expressions_do_not_jump_partial.

(** A break or continue outside a loop and outside a switch is rejected, wherever it stands. *)
Theorem C33_stray_jump_rejected ty thr m :
  forallb plain_steps (m_body m) = true -> forallb (placed false) (m_body m) = false -> ~ accepted ty thr m.
Proof. intros H1 H2 H3. by rewrite (accepted_placed _ _ _ H3 H1) in H2. Qed.
Print Assumptions C33_stray_jump_rejected.

(** ** Examples *)
Definition ex_io : fio := FIO (fun _ => []) (fun _ => []) (fun _ => d_of_int 0) (fun _ => f_of_int 0).
Definition num (k : Z) : expr := ELit (mk t_int (AInt k)).
Definition text (t : str) : expr := ELit (mk t_string (AStr t)).
Definition ex_ty (e : expr) : str := match e with ELit v => o_type v | _ => t_int end.
Definition ex_inst (a b : str) : bool := str_eqb a b.
Definition ex_prog (ms : list (str * method)) : prog := Prog ms [] (fun _ _ => None) ex_inst ex_io.

(** [void f() { while (true) { if (true) { break; } } for (;false;) { continue; } }] *)
Definition ex_loop : method := Method t_void [] [
  SWhile (ELit (mk t_bool (ABool true))) (SBlock [SIf (ELit (mk t_bool (ABool true))) (SBlock [SBreak]) SSkip]);
  SFor SSkip (Some (ELit (mk t_bool (ABool false)))) SSkip (SBlock [SContinue])].
Example C33_hypotheses_met : accepted_prog ex_ty (ex_prog [($"f", ex_loop)]) /\
  exists s', execute (ex_prog [($"f", ex_loop)]) 20 ex_loop [] anon (start []) = (Val anon, s') /\ s_flow s' = FNormal.
Proof.
  split.
  - intros f m [[[= <- <-]|[]]|[]]. split; [|done]. exists false. by eexists.
  - exists (snd (execute (ex_prog [($"f", ex_loop)]) 20 ex_loop [] anon (start []))). split; vm_compute; reflexivity.
Qed.
Example C33_stray_hypotheses_met : let m := Method t_void [] [SIf (num 1) (SBlock [SBreak]) SSkip] in
  forallb plain_steps (m_body m) = true /\ forallb (placed false) (m_body m) = false.
Proof. done. Qed.

(** In an accepted method every case of a switch statement, and its default block, contains a statement that leaves it. *)
Theorem C33_cases_leave ty thr m e cs d :
  accepted ty thr m -> In (SSwitch e cs d) (statements (m_body m)) ->
  (forall ce b, In (ce, b) cs -> exists t, In t (statements b) /\ jump t) /\ (d <> [] -> exists t, In t (statements d) /\ jump t).
Proof.
  intros Ha Hin. apply accepted_body in Ha as (g & Hg & _).
  eapply nchk_list in Hg; [|apply Forall_forall; intros x _; apply nchk_all]. apply Hg in Hin as (a & g1 & g2 & H). cbn [gen_stmt] in H.
  apply rbind_Ok in H as (g3 & E1 & H).
  assert (forall b g g', gen_scope true (fold_res (gen_stmt ty (m_ret m) true) b) g = Ok g' -> exists t, In t (statements b) /\ jump t) as Hb.
  { clear. intros b g g' H. pose proof (gen_scope_inv _ _ _ _ H) as Hg. set (F := fun f => f <> FNormal).
    assert (F (g_flow g')) as HF. { unfold gen_scope in H. rewrite Hg in H. cbn [rbind] in H. unfold F. by destruct (g_flow g'). }
    destruct (List.Exists_dec jump (statements b)) as [He|He]; [intros []; cbn; auto|by apply List.Exists_exists|]. exfalso.
    eapply (funset_list ty (m_ret m) F) in Hg; [by destruct Hg| | |exact HF].
    - apply Forall_forall. intros x _. apply funset_all. by intros [].
    - intros t f Ht Hs _. apply He, List.Exists_exists. exists t. split; [done|]. by destruct t. }
  split.
  - intros ce b Hc. apply fold_res_Ok in E1. rewrite Forall_forall in E1. apply elem_of_list_In in Hc. destruct (E1 _ Hc) as (ga & gb & E). by eapply Hb.
  - intros Hd. destruct d; [done|]. by eapply Hb.
Qed.
Definition ex_switch : method := Method t_void [] [SSwitch (num 1) [(num 1, [SIf (num 1) (SBlock [SBreak]) SSkip])] [SReturn None]].
Example C33_cases_leave_ex : accepted ex_ty false ex_switch /\
  In (SSwitch (num 1) [(num 1, [SIf (num 1) (SBlock [SBreak]) SSkip])] [SReturn None]) (statements (m_body ex_switch)).
Proof. split; [by eexists|]. cbn. tauto. Qed.
Print Assumptions C33_cases_leave.

(** Refuted in general: [void f() { for (int i = 0; i < 1; { i = i + 1; break; }) { } print("after"); }] is
    accepted, but the break escapes from the loop: "after" is never printed and the method
    ends with a break pending. *)
Definition ex_step : method := Method t_void [] [
  SFor (SDecl t_int ($"i") (Some (num 0))) (Some (EBool COMPARE_LESS (EVar ($"i")) (num 1)))
       (SBlock [SAssign ($"i") (EBin MATH_ADDITION (EVar ($"i")) (num 1)); SBreak]) (SBlock []);
  SPrint (text ($"after"))].
Theorem C33_for_step_refuted :
  accepted ex_ty false ex_step /\
  exists n s', run_main (ex_prog [($"f", ex_step)]) n ex_step [] [] = (Val anon, s') /\
    s_flow s' = FBreak /\ w_out (s_world s') = [].
Proof. split; [by eexists|]. exists 30%nat. eexists. split; [vm_compute; reflexivity|done]. Qed.
Print Assumptions C33_for_step_refuted.

(** C34. If the body of an accepted method contains, on every path, a return, a throw or an
    exit ([leaves]), then running it never falls off its end. Missing: the generator accepts
    methods whose bodies do not have this property, see [C34_missing_return_refuted]. *)
Theorem C34_returns_partial ty P f m n args dst s :
  accepted_prog ty P -> In (f, m) (p_methods P) -> existsb leaves (m_body m) = true -> s_flow s = FNormal ->
  match execute P n m args dst s with
  | (Val _, s') => s_flow s' = FReturn \/ s_flow s' = FThrow \/ s_flow s' = FExit
  | (Raise k, _) => k = FThrow \/ k = FExit
  | _ => True
  end.
Proof.
  intros HP Hm Hl Hs. pose proof (C33_jumps_stay_in_method_partial ty P f m n args dst s HP (or_introl Hm) Hs) as H.
  assert (triple top (execute P n m args dst) (fun _ => nn) rj) as Ht.
  { destruct n as [|n]; [rewrite execute_0; apply t_nofuel|]. rewrite execute_S. do 2 hb.
    eapply t_bind; [by apply leaving_ok|intros []]. hb. hk. }
  specialize (Ht s I). destruct (execute _ _ _ _ _ _) as [[r|k| | |] s']; try done. unfold on, nn in Ht. naive_solver.
Qed.
Print Assumptions C34_returns_partial.
(** What the caller of such a method receives is the value of the return statement that ended it. *)
Theorem C34_return_value P n e g s s' v r :
  eval P n e anon s = (Val v, s') -> s_frames s' = g :: r ->
  forall v', assign_to P (fr_ret g) v = Ok v' ->
  visit P (S n) (SReturn (Some e)) s = (Val tt, St (Frame (fr_scopes g) v' :: r) (s_world s') FReturn).
Proof.
  intros He Hf v' Ha. rewrite visit_S. unfold try_control. rewrite He. unfold bind, get_ret, set_ret, lift, set_flow. rewrite Hf, Ha. cbn. by rewrite Hf.
Qed.
Print Assumptions C34_return_value.
Definition ex_both : method := Method t_int [($"bool", $"b")] [SIf (EVar ($"b")) (SBlock [SReturn (Some (num 1))]) (SBlock [SThrow (Some (num 2))])].
Example C34_hypotheses_met : accepted_prog ex_ty (ex_prog [($"f", ex_both)]) /\ existsb leaves (m_body ex_both) = true.
Proof. split; [|done]. intros f m [[[= <- <-]|[]]|[]]. split; [|done]. exists true. by eexists. Qed.

(** A method that must return a value and in which no return and no throw statement stands anywhere is rejected. *)
Theorem C34_no_return_rejected ty thr m :
  m_ret m <> t_void -> (forall t, In t (statements (m_body m)) -> ~ return_or_throw t) -> ~ accepted ty thr m.
Proof.
  intros Hv Hn [g H]. unfold gen_method in H. apply rbind_Ok in H as (g1 & E & H). apply gen_scope_inv in E.
  set (F := fun f => f = FReturn \/ f = FThrow).
  assert (~ F (g_flow g1)) as HF.
  { intros HF. eapply (funset_list ty (m_ret m) F) in E; [by destruct E| | |exact HF].
    - apply Forall_forall. intros x _. apply funset_all. by intros [|].
    - intros t f Ht Hs HFf. apply (Hn t Ht). destruct t; cbn in Hs; try done; injection Hs as <-; by destruct HFf. }
  destruct (_ && negb thr); [done|]. assert (str_eqb (m_ret m) t_void = false) as Hf by (unfold str_eqb; by rewrite bool_decide_eq_false).
  rewrite Hf in H. cbn [negb andb] in H. unfold F in HF. destruct (g_flow g1); try done; destruct HF; auto.
Qed.
Example C34_no_return_rejected_ex : let m := Method t_int [] [SWhile (num 1) (SBlock [SExit (num 1)])] in
  m_ret m <> t_void /\ forall t, In t (statements (m_body m)) -> ~ return_or_throw t.
Proof. split; [done|]. intros t. cbn. intros [<-|[<-|[<-|[]]]]; tauto. Qed.
Print Assumptions C34_no_return_rejected.
(** In an accepted method every return statement gives back a value of the declared type, or nothing if that is void. *)
Theorem C34_return_types ty thr m e :
  accepted ty thr m -> In (SReturn e) (statements (m_body m)) ->
  match e with Some e => ty e = m_ret m | None => m_ret m = t_void end.
Proof.
  intros Ha Hin. apply accepted_body in Ha as (g & Hg & _).
  eapply nchk_list in Hg; [|apply Forall_forall; intros x _; apply nchk_all]. apply Hg in Hin as (a & g1 & g2 & H). cbn [gen_stmt] in H. cbv zeta in H.
  destruct (str_eqb (m_ret m) _) eqn:E; [|done]. apply str_eqb_eq in E. by destruct e.
Qed.
Example C34_return_types_ex : accepted ex_ty true ex_both /\ In (SReturn (Some (num 1))) (statements (m_body ex_both)).
Proof. split; [by eexists|]. cbn. tauto. Qed.
Print Assumptions C34_return_types.

(** Refuted in general: [int f(bool b) { if (b) { return 1; } }] is accepted and f(false) falls off the
    end; the caller receives the placeholder object of the frame, which is not an int. *)
Definition ex_missing : method := Method t_int [($"bool", $"b")] [SIf (EVar ($"b")) (SBlock [SReturn (Some (num 1))]) SSkip].
Theorem C34_missing_return_refuted :
  accepted ex_ty false ex_missing /\
  exists n s' v, run_main (ex_prog [($"f", ex_missing)]) n ex_missing [mk t_bool (ABool false)] [] = (Val v, s') /\
    s_flow s' = FNormal /\ o_type v <> t_int.
Proof. split; [by eexists|]. exists 20%nat. do 2 eexists. split; [vm_compute; reflexivity|done]. Qed.
Print Assumptions C34_missing_return_refuted.

(** C35. Let [foreign] hold of the exceptions that evaluating the expressions of the body may
    raise (calls of other methods and of extensions, unknown names). If a method not declared
    with throws is accepted, an exception that leaves it is foreign: none of its own throw
    statements escapes. Missing: rethrow, throw in catch clauses, finally, foreach; see the
    refuted theorems below. *)
Theorem C35_own_exceptions_partial P ty (foreign : obj -> Prop) m n args dst s s' v :
  accepted ty false m -> forallb tame (m_body m) = true ->
  (forall e, In e (concat (map exprs (m_body m))) -> only_foreign P foreign e) ->
  (forall e, In (Some e) (concat (map throws (m_body m))) -> typed P ty e) ->
  s_flow s = FNormal -> execute P n m args dst s = (Val v, s') -> s_flow s' = FThrow ->
  exists o, w_exn (s_world s') = Some o /\ foreign o.
Proof.
  intros Ha Ht H1 H2 Hs He Hf. apply accepted_body in Ha as (g & Hg & Hnone). specialize (Hnone eq_refl).
  apply (recorded_list ty (m_ret m)) in Hg as [_ Hesc]; [|apply Forall_forall; intros; apply recorded_all|done].
  rewrite Hnone in Hesc.
  assert (triple (G P foreign []) (execute P n m args dst) (fun _ => G P foreign []) RX) as Htr.
  { destruct n as [|n]; [rewrite execute_0; apply t_nofuel|]. rewrite execute_S. do 2 hb.
    eapply t_bind; [apply (e_process P ty foreign n (escaping_ok P ty foreign n)); [done|by apply fine_list|done]|intros []]. hb. hk. }
  specialize (Htr s). rewrite He in Htr. unfold on in Htr. rewrite Hs in Htr.
  destruct (Htr ltac:(done) Hf) as (o & Ho & [Hfo|(t & Hin & _)]); [eauto|]. set_solver.
Qed.
Print Assumptions C35_own_exceptions_partial.
(** A throw statement outside of every try statement makes the compiler reject a method that is
    not declared with throws, however deep it is nested. *)
Theorem C35_uncaught_rejected ty m : existsb bare_throw (m_body m) = true -> ~ accepted ty false m.
Proof.
  intros H Ha. apply accepted_body in Ha as (g & Hg & Hn). apply bare_list in Hg as [_ Hg]; [|apply Forall_forall; intros; apply bare_all].
  by apply Hg, Hn.
Qed.
Example C35_uncaught_hypotheses_met :
  existsb bare_throw [SWhile (num 1) (SBlock [SIf (num 1) (SBlock [SThrow (Some (num 2))]) SSkip])] = true.
Proof. done. Qed.
Print Assumptions C35_uncaught_rejected.

(** [void f() { try { throw "x"; } catch (string e) { print(e); } }] *)
Definition ex_caught : method := Method t_void [] [
  STry [SThrow (Some (text ($"x")))] [(Some (t_string, $"e"), [SPrint (text ($"caught"))])] None].
Example C35_hypotheses_met :
  accepted ex_ty false ex_caught /\ forallb tame (m_body ex_caught) = true /\
  (forall e, In e (concat (map exprs (m_body ex_caught))) -> only_foreign (ex_prog []) (fun _ => False) e) /\
  (forall e, In (Some e) (concat (map throws (m_body ex_caught))) -> typed (ex_prog []) ex_ty e).
Proof.
  split; [by eexists|]. split; [done|]. split.
  - intros e [<-|[<-|[]]] n dst s; (destruct n; [rewrite eval_0|rewrite eval_S]); cbn; auto.
  - intros e [[= <-]|[]] n dst s v s'. destruct n; [by rewrite eval_0|]. rewrite eval_S. cbn. by intros [= <- _].
Qed.

(** Refuted in general. A rethrow is not recorded: [void f() { try { throw 1; } catch (int e) { throw; } }]. *)
Definition ex_rethrow : method := Method t_void [] [
  STry [SThrow (Some (num 1))] [(Some (t_int, $"e"), [SThrow None])] None].
Theorem C35_rethrow_refuted : accepted ex_ty false ex_rethrow /\
  exists n s' v, run_main (ex_prog []) n ex_rethrow [] [] = (Val v, s') /\ s_flow s' = FThrow /\ w_exn (s_world s') = Some (mk t_int (AInt 1)).
Proof. split; [by eexists|]. exists 20%nat. do 2 eexists. split; [vm_compute; reflexivity|done]. Qed.
Print Assumptions C35_rethrow_refuted.
(** A later catch clause erases what an earlier one throws:
    [void f() { try { throw 1; } catch (int e) { throw "x"; } catch (string e) { } }]. *)
Definition ex_clause : method := Method t_void [] [
  STry [SThrow (Some (num 1))] [(Some (t_int, $"e"), [SThrow (Some (text ($"x")))]); (Some (t_string, $"e"), [])] None].
Theorem C35_throw_in_catch_refuted : accepted ex_ty false ex_clause /\
  exists n s' v, run_main (ex_prog []) n ex_clause [] [] = (Val v, s') /\ s_flow s' = FThrow /\ w_exn (s_world s') = Some (mk t_string (AStr ($"x"))).
Proof. split; [by eexists|]. exists 20%nat. do 2 eexists. split; [vm_compute; reflexivity|done]. Qed.
Print Assumptions C35_throw_in_catch_refuted.
(** A try statement without catch clauses forgets what its finally block throws:
    [void f() { try { } finally { throw 1; } }]. *)
Definition ex_finally : method := Method t_void [] [STry [] [] (Some [SThrow (Some (num 1))])].
Theorem C35_throw_in_finally_refuted : accepted ex_ty false ex_finally /\
  exists n s' v, run_main (ex_prog []) n ex_finally [] [] = (Val v, s') /\ s_flow s' = FThrow /\ w_exn (s_world s') = Some (mk t_int (AInt 1)).
Proof. split; [by eexists|]. exists 20%nat. do 2 eexists. split; [vm_compute; reflexivity|done]. Qed.
Print Assumptions C35_throw_in_finally_refuted.
