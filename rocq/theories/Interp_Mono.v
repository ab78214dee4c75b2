(** The fuel of the interpreter is only a bound: a result reached with some fuel is reached with any more. *)
From Coq Require Import Floats.SpecFloat.
From Verif Require Import Base Base_Proofs Text_Model Tok_Model TypeTable TypeSys_Model Value_Model Interp_Model Interp_Spec Interp_Eqs.

(** [m'] behaves like [m] wherever [m] does not run out of fuel. *)
Definition leM {A} (m m' : M A) : Prop := forall s, fst (m s) = NoFuel \/ m' s = m s.
Lemma le_refl {A} (m : M A) : leM m m.
Proof. by right. Qed.
Lemma le_nofuel {A} (m : M A) : leM nofuel m.
Proof. by left. Qed.
Lemma le_bind {A B} (m m' : M A) (k k' : A -> M B) : leM m m' -> (forall a, leM (k a) (k' a)) -> leM (bind m k) (bind m' k').
Proof.
  intros H Hk s. unfold bind. destruct (H s) as [E|E].
  - destruct (m s) as [[] s']; try done. by left.
  - rewrite E. destruct (m s) as [[] s']; try (by right). apply Hk.
Qed.
Lemma le_try {A B} (m m' : M A) (d : B) (k k' : A -> M B) : leM m m' -> (forall a, leM (k a) (k' a)) -> leM (try_control m d k) (try_control m' d k').
Proof.
  intros H Hk s. unfold try_control. destruct (H s) as [E|E].
  - destruct (m s) as [[] s']; try done. by left.
  - rewrite E. destruct (m s) as [[] s']; try (by right). apply Hk.
Qed.

Section Mono.
Context (P : prog).
Record mono (n : nat) : Prop := {
  mo_eval e d : leM (eval P n e d) (eval P (S n) e d);
  mo_args es : leM (eval_args P n es) (eval_args P (S n) es);
  mo_call f vs d : leM (call P n f vs d) (call P (S n) f vs d);
  mo_new c vs : leM (construct P n c vs) (construct P (S n) c vs);
  mo_exec m vs d : leM (execute P n m vs d) (execute P (S n) m vs d);
  mo_visit s : leM (visit P n s) (visit P (S n) s);
  mo_process l : leM (process P n l) (process P (S n) l);
  mo_block l : leM (block P n l) (block P (S n) l);
  mo_handle cs : leM (handle P n cs) (handle P (S n) cs);
  mo_finish fin : leM (finish P n fin) (finish P (S n) fin);
  mo_while c b d : leM (while_loop P n c b d) (while_loop P (S n) c b d);
  mo_for c it b d : leM (for_loop P n c it b d) (for_loop P (S n) c it b d);
  mo_foreach t x hn nx b : leM (foreach_loop P n t x hn nx b) (foreach_loop P (S n) t x hn nx b);
  mo_switch e cs d o : leM (switch_loop P n e cs d o) (switch_loop P (S n) e cs d o);
  mo_cases v cs : leM (switch_cases P n v cs) (switch_cases P (S n) v cs)
}.
Ltac mstep := first
  [ match goal with
    | H : mono _ |- leM (eval _ _ _ _) _ => apply (mo_eval _ H) | H : mono _ |- leM (eval_args _ _ _) _ => apply (mo_args _ H)
    | H : mono _ |- leM (call _ _ _ _ _) _ => apply (mo_call _ H) | H : mono _ |- leM (construct _ _ _ _) _ => apply (mo_new _ H)
    | H : mono _ |- leM (execute _ _ _ _ _) _ => apply (mo_exec _ H) | H : mono _ |- leM (visit _ _ _) _ => apply (mo_visit _ H)
    | H : mono _ |- leM (process _ _ _) _ => apply (mo_process _ H) | H : mono _ |- leM (block _ _ _) _ => apply (mo_block _ H)
    | H : mono _ |- leM (handle _ _ _) _ => apply (mo_handle _ H) | H : mono _ |- leM (finish _ _ _) _ => apply (mo_finish _ H)
    | H : mono _ |- leM (while_loop _ _ _ _ _) _ => apply (mo_while _ H) | H : mono _ |- leM (for_loop _ _ _ _ _ _) _ => apply (mo_for _ H)
    | H : mono _ |- leM (foreach_loop _ _ _ _ _ _ _) _ => apply (mo_foreach _ H) | H : mono _ |- leM (switch_loop _ _ _ _ _ _) _ => apply (mo_switch _ H)
    | H : mono _ |- leM (switch_cases _ _ _ _) _ => apply (mo_cases _ H)
    end
  | apply le_refl
  | apply le_bind; [|intros ?] | apply le_try; [|intros ?]
  | match goal with
    | |- leM (if ?b then _ else _) _ => destruct b
    | |- leM (match ?b with _ => _ end) _ => destruct b
    end ].
Lemma mono_ok n : mono n.
Proof.
  induction n as [|n IH].
  { constructor; intros; rewrite ?eval_0, ?eval_args_0, ?call_0, ?construct_0, ?execute_0, ?visit_0, ?process_0, ?block_0, ?while_loop_0,
      ?for_loop_0, ?foreach_loop_0, ?switch_loop_0, ?switch_cases_0, ?handle_0, ?finish_0; apply le_nofuel. }
  constructor; intros.
  - rewrite (eval_S P (S n)), (eval_S P n). destruct e; cbv zeta; repeat mstep.
  - rewrite (eval_args_S P (S n)), (eval_args_S P n). repeat mstep.
  - rewrite (call_S P (S n)), (call_S P n). repeat mstep.
  - rewrite (construct_S P (S n)), (construct_S P n). destruct (find_method _ _ _) as [m|]; [|apply le_refl]. intros s. cbv zeta.
    match goal with |- context [execute P n m vs anon ?s] => destruct (mo_exec _ IH m vs anon s) as [E|E] end.
    + destruct (execute P n m vs anon _) as [[] s']; try done. by left.
    + rewrite E. by right.
  - rewrite (execute_S P (S n)), (execute_S P n). repeat mstep.
  - rewrite (visit_S P (S n)), (visit_S P n). destruct s; repeat mstep.
  - rewrite (process_S P (S n)), (process_S P n). repeat mstep.
  - rewrite (block_S P (S n)), (block_S P n). repeat mstep.
  - rewrite (handle_S P (S n)), (handle_S P n). repeat mstep.
  - rewrite (finish_S P (S n)), (finish_S P n). repeat mstep.
  - rewrite (while_loop_S P (S n)), (while_loop_S P n). repeat mstep.
  - rewrite (for_loop_S P (S n)), (for_loop_S P n). cbv zeta. repeat mstep.
  - rewrite (foreach_loop_S P (S n)), (foreach_loop_S P n). repeat mstep.
  - rewrite (switch_loop_S P (S n)), (switch_loop_S P n). cbv zeta. repeat mstep.
  - rewrite (switch_cases_S P (S n)), (switch_cases_S P n). repeat mstep.
Qed.
End Mono.
