(** Every tree of statements can be written down. *)
From Coq Require Import Floats.SpecFloat.
From Verif Require Import Base Base_Proofs Text_Model Tok_Model TypeTable TypeSys_Model Value_Model Parse_Model Parse_Spec
  Parse_Brackets Parse_Complete Parse_Sound Decl_Model Stmt_Model Stmt_Spec Stmt_Proofs.

(** ** One text for each tree *)
(** How the text of a statement ends. *)
Fixpoint ends_like (s : ss) : kind :=
  match s with
  | YExpr _ | YAssign _ | YDecl _ _ | YVar _ _ _ _ | YAssert _ _ => Semi
  | YFor _ _ _ b | YForeach _ _ b | YWhile _ b | YIf _ _ (Some b) => ends_like b
  | YIf _ a None => match ends_like a with Semi => Semi | _ => OpenIf end
  | _ => Full
  end.

Definition kw (s : str) : token := wtok KEYWORD s.
Definition semi : token := wtok SEMICOLON ($";").
Definition bo : token := wtok BRACKET_CURLY_OPEN ($"{").
Definition bc : token := wtok BRACKET_CURLY_CLOSE ($"}").
Definition colon : token := wtok COLON ($":").
Definition opt_word (ty : ttype) (w : option str) : list token := match w with Some w => [wtok ty w] | None => [] end.
Definition write_type (d : named_type) : list token :=
  wtok IDENTIFIER (nt_type d) :: wtok IDENTIFIER (nt_name d) :: opt_word MUTABILITY (nt_mut d) ++ opt_word ACCESS_MODE (nt_acc d).
Definition write_opt (x : option sx) : list token := match x with Some x => full x | None => [] end.
Definition separator (s : ss) : list token := match ends_like s with Semi => [semi] | _ => [] end.

Fixpoint write (s : ss) {struct s} : list token :=
  let fix block (l : list ss) {struct l} : list token := match l with [] => [] | s :: l => write s ++ separator s ++ block l end in
  let fix labels (cs : list (option sx * list ss)) {struct cs} : list token :=
    match cs with
    | [] => []
    | (Some x, l) :: cs => kw ($"case") :: full x ++ colon :: (bo :: block l ++ [bc]) ++ labels cs
    | (None, l) :: cs => kw ($"default") :: colon :: (bo :: block l ++ [bc]) ++ labels cs
    end in
  let fix handlers (cs : list (option (option named_type) * list ss)) {struct cs} : list token :=
    match cs with
    | [] => []
    | (Some None, l) :: cs => kw ($"catch") :: (bo :: block l ++ [bc]) ++ handlers cs
    | (Some (Some d), l) :: cs => kw ($"catch") :: (po :: write_type d ++ [pc]) ++ (bo :: block l ++ [bc]) ++ handlers cs
    | (None, l) :: cs => kw ($"finally") :: (bo :: block l ++ [bc]) ++ handlers cs
    end in
  match s with
  | YEmpty => [semi]
  | YExpr x => full x
  | YAssign x => match x with XAssign n op e => wtok IDENTIFIER n :: wtok op [] :: full e | _ => [] end
  | YDecl d None => write_type d
  | YDecl d (Some x) => write_type d ++ wtok ASSIGN ($"=") :: full x
  | YVar x m a e => kw ($"var") :: wtok IDENTIFIER x :: opt_word MUTABILITY m ++ opt_word ACCESS_MODE a ++ wtok ASSIGN ($"=") :: full e
  | YAssert e None => kw ($"assert") :: po :: full e ++ [pc]
  | YAssert e (Some m) => kw ($"assert") :: po :: (full e ++ wtok COMMA ($",") :: full m) ++ [pc]
  | YBreak => [kw ($"break"); semi]
  | YContinue => [kw ($"continue"); semi]
  | YDelete e => kw ($"delete") :: full e ++ [semi]
  | YExit e => kw ($"exit") :: (po :: full e ++ [pc]) ++ [semi]
  | YPrint e => kw ($"print") :: (po :: full e ++ [pc]) ++ [semi]
  | YReturn e => kw ($"return") :: write_opt e ++ [semi]
  | YThrow e => kw ($"throw") :: write_opt e ++ [semi]
  | YFor i c u b => kw ($"for") :: po :: match i with Some i => write i | None => [] end ++ semi :: write_opt c ++ semi ::
                    match u with Some u => write u | None => [] end ++ pc :: write b
  | YForeach d e b => kw ($"foreach") :: po :: write_type d ++ colon :: full e ++ pc :: write b
  | YIf c a None => kw ($"if") :: (po :: full c ++ [pc]) ++ write a
  | YIf c a (Some b) => kw ($"if") :: (po :: full c ++ [pc]) ++ write a ++ kw ($"else") :: write b
  | YSwitch e cs => kw ($"switch") :: (po :: full e ++ [pc]) ++ bo :: labels cs ++ [bc]
  | YTry l cs => kw ($"try") :: (bo :: block l ++ [bc]) ++ handlers cs
  | YWhile c b => kw ($"while") :: (po :: full c ++ [pc]) ++ write b
  | YBlock l => bo :: block l ++ [bc]
  end.
Fixpoint write_list (l : list ss) : list token := match l with [] => [] | s :: l => write s ++ separator s ++ write_list l end.

(** ** Trees that have a text: a statement in front of an else ends with a [;] or [}] of its own and is not an if without
    else, heads of for loops hold simple statements, a finally block comes last *)
Definition says_opt (x : option sx) : Prop := match x with Some x => writable x | None => True end.
Inductive says : ss -> Prop :=
| says_empty : says YEmpty
| says_expr x : writable x -> says (YExpr x)
| says_assign n op e : op ∈ assign_types -> writable e -> says (YAssign (XAssign n op e))
| says_decl d x : says_opt x -> says (YDecl d x)
| says_var x m a e : writable e -> says (YVar x m a e)
| says_assert e m : writable e -> says_opt m -> says (YAssert e m)
| says_break : says YBreak
| says_continue : says YContinue
| says_delete e : writable e -> says (YDelete e)
| says_exit e : writable e -> says (YExit e)
| says_print e : writable e -> says (YPrint e)
| says_return e : says_opt e -> says (YReturn e)
| says_throw e : says_opt e -> says (YThrow e)
| says_for i c u b : (forall s, i = Some s -> simple s /\ says s) -> says_opt c -> (forall s, u = Some s -> simple s /\ says s) -> says b ->
    says (YFor i c u b)
| says_foreach d e b : writable e -> says b -> says (YForeach d e b)
| says_if c a : writable c -> says a -> says (YIf c a None)
| says_else c a b : writable c -> says a -> ends_like a = Full -> says b -> says (YIf c a (Some b))
| says_switch e cs : writable e -> says_cases cs -> says (YSwitch e cs)
| says_try l cs : says_all l -> says_clauses cs -> says (YTry l cs)
| says_while c b : writable c -> says b -> says (YWhile c b)
| says_block l : says_all l -> says (YBlock l)
with says_all : list ss -> Prop :=
| says_nil : says_all []
| says_cons s l : says s -> says_all l -> says_all (s :: l)
with says_cases : list (option sx * list ss) -> Prop :=
| sc_nil : says_cases []
| sc_cons x l cs : says_opt x -> says_all l -> says_cases cs -> says_cases ((x, l) :: cs)
with says_clauses : list (option (option named_type) * list ss) -> Prop :=
| sl_nil : says_clauses []
| sl_catch d l cs : says_all l -> says_clauses cs -> says_clauses ((Some d, l) :: cs)
| sl_finally l : says_all l -> says_clauses [(None, l)].
Scheme says_ind' := Induction for says Sort Prop with says_all_ind' := Induction for says_all Sort Prop
  with says_cases_ind' := Induction for says_cases Sort Prop with says_clauses_ind' := Induction for says_clauses Sort Prop.
Combined Scheme says_mut from says_ind', says_all_ind', says_cases_ind', says_clauses_ind'.

Fixpoint write_labels (cs : list (option sx * list ss)) : list token :=
  match cs with
  | [] => []
  | (Some x, l) :: cs => kw ($"case") :: full x ++ colon :: (bo :: write_list l ++ [bc]) ++ write_labels cs
  | (None, l) :: cs => kw ($"default") :: colon :: (bo :: write_list l ++ [bc]) ++ write_labels cs
  end.
Fixpoint write_handlers (cs : list (option (option named_type) * list ss)) : list token :=
  match cs with
  | [] => []
  | (Some None, l) :: cs => kw ($"catch") :: (bo :: write_list l ++ [bc]) ++ write_handlers cs
  | (Some (Some d), l) :: cs => kw ($"catch") :: (po :: write_type d ++ [pc]) ++ (bo :: write_list l ++ [bc]) ++ write_handlers cs
  | (None, l) :: cs => kw ($"finally") :: (bo :: write_list l ++ [bc]) ++ write_handlers cs
  end.
Lemma write_switch e cs : write (YSwitch e cs) = kw ($"switch") :: (po :: full e ++ [pc]) ++ bo :: write_labels cs ++ [bc].
Proof. reflexivity. Qed.
Lemma write_try l cs : write (YTry l cs) = kw ($"try") :: (bo :: write_list l ++ [bc]) ++ write_handlers cs.
Proof. reflexivity. Qed.
Lemma write_block l : write (YBlock l) = bo :: write_list l ++ [bc].
Proof. reflexivity. Qed.

Lemma full_expr k x : writable x -> expr true k (full x) x.
Proof. intros H. exists Closed. apply lift_level, term_infix, full_denotes. exact H. Qed.
Lemma write_opt_expr x : says_opt x -> opt_expr true (write_opt x) x.
Proof. destruct x as [x|]; cbn; [apply full_expr|reflexivity]. Qed.
Lemma write_word ty w : word true ty (opt_word ty w) w.
Proof. destruct w as [w|]; cbn; [|reflexivity]. exists (wtok ty w). auto. Qed.
Lemma write_named d : named_tokens true (write_type d) d.
Proof.
  destruct d as [t x m a]. exact (nt_tokens true (wtok IDENTIFIER t) (wtok IDENTIFIER x) _ _ m a (fun _ => eq_refl) eq_refl (write_word _ _) (write_word _ _)).
Qed.
Lemma kw_keyword s : keyword (kw s) s.
Proof. split; reflexivity. Qed.
Lemma full_paren x : writable x -> exists o ts, full x = o :: ts /\ k_type o = PARENTHESIS_OPEN.
Proof. destruct 1; eexists _, _; (split; [reflexivity|reflexivity]). Qed.
Lemma simple_like s : simple s -> ends_like s = Semi.
Proof. destruct s; cbn; tauto. Qed.
Lemma parens_around ts : parens (po :: ts ++ [pc]) ts.
Proof. exists po, pc. auto. Qed.
Lemma curly_around ts : curly (bo :: ts ++ [bc]) ts.
Proof. exists bo, bc. auto. Qed.
Lemma not_lax {P : Prop} : true = false -> P.
Proof. discriminate. Qed.

Lemma writes_simple s : simple s -> says s -> written true (ends_like s) (write s) s.
Proof.
  intros Hs H. destruct H; try contradiction Hs; clear Hs; cbn [write ends_like].
  - destruct (full_paren x H) as (o & ts & Eo & Ho). rewrite Eo. apply w_paren; [exact Ho|]. rewrite <- Eo. apply full_expr. exact H.
  - constructor; [reflexivity|exact H|]. exists Open. apply lift_level, term_infix.
    apply (d_assign true (wtok IDENTIFIER n) (wtok op []) (full e) Closed e eq_refl H). apply lift_level, term_infix, full_denotes. assumption.
  - destruct x as [x|].
    + apply (w_init true (write_type d) d (wtok ASSIGN ($"=")) (full x) x); [apply write_named|reflexivity|apply full_expr; exact H].
    + constructor. apply write_named.
  - apply (w_var true (kw ($"var")) (wtok IDENTIFIER x) (opt_word MUTABILITY m) (opt_word ACCESS_MODE a) (wtok ASSIGN ($"=")) (full e) m a e);
      [apply kw_keyword|reflexivity|apply write_word|apply write_word|reflexivity|apply full_expr; exact H].
Qed.

Theorem writes :
  (forall s, says s -> written true (ends_like s) (write s) s) /\
  (forall l, says_all l -> written_list true (write_list l) l) /\
  (forall cs, says_cases cs -> written_cases true (write_labels cs) cs) /\
  (forall cs, says_clauses cs -> written_clauses true (write_handlers cs) cs).
Proof.
  apply says_mut.
  - constructor. reflexivity.
  - intros x H. apply writes_simple; [exact I|constructor; exact H].
  - intros n op e Hop H. apply writes_simple; [exact I|constructor; assumption].
  - intros d x H. apply writes_simple; [exact I|constructor; exact H].
  - intros x m a e H. apply writes_simple; [exact I|constructor; exact H].
  - intros e [m|] He Hm; cbn [write ends_like].
    + eapply w_assert_message; [apply kw_keyword|apply parens_around|apply full_expr; exact He|reflexivity|apply full_expr; exact Hm].
    + eapply w_assert; [apply kw_keyword|apply parens_around|apply full_expr; exact He].
  - constructor; [apply kw_keyword|reflexivity].
  - constructor; [apply kw_keyword|reflexivity].
  - intros e H. constructor; [apply kw_keyword|apply full_expr; exact H|reflexivity].
  - intros e H. cbn [write ends_like]. eapply w_exit; [apply kw_keyword|apply parens_around|apply full_expr; exact H|reflexivity].
  - intros e H. cbn [write ends_like]. eapply w_print; [apply kw_keyword|apply parens_around|apply full_expr; exact H|reflexivity].
  - intros e H. constructor; [apply kw_keyword|apply write_opt_expr; exact H|reflexivity].
  - intros e H. constructor; [apply kw_keyword|apply write_opt_expr; exact H|reflexivity].
  - intros i c u b Hi Hc Hu Hb IH. cbn [write ends_like].
    apply (w_for true (kw ($"for")) po (match i with Some i => write i | None => [] end) semi (write_opt c) semi
      (match u with Some u => write u | None => [] end) pc (write b) i c u (ends_like b) b);
      [apply kw_keyword|reflexivity| |apply write_opt_expr; exact Hc| |exact IH|auto].
    + destruct i as [i|]; [|constructor]. destruct (Hi i eq_refl) as [Hs Hi']. apply wo_some with (ends_like i); [|auto]. apply writes_simple; assumption.
    + destruct u as [u|]; [|constructor]. destruct (Hu u eq_refl) as [Hs Hi']. apply wo_some with (ends_like u); [|auto]. apply writes_simple; assumption.
  - intros d e b He Hb IH. cbn [write ends_like]. apply (w_foreach true (kw ($"foreach")) po (write_type d) colon (full e) pc (write b) d e);
      [apply kw_keyword|reflexivity|apply write_named|reflexivity|apply full_expr; exact He|reflexivity|exact IH].
  - intros c a Hc Ha IH. cbn [write ends_like]. apply (w_if true (kw ($"if")) (po :: full c ++ [pc]) (full c) c (ends_like a) (write a) a);
      [apply kw_keyword|apply parens_around|apply full_expr; exact Hc|exact IH].
  - intros c a b Hc Ha IHa Ea Hb IHb. cbn [write ends_like].
    apply (w_else true (kw ($"if")) (po :: full c ++ [pc]) (full c) c (ends_like a) (write a) a (kw ($"else")) (ends_like b) (write b) b);
      [apply kw_keyword|apply parens_around|apply full_expr; exact Hc|exact IHa|intros _; exact Ea|apply kw_keyword|exact IHb].
  - intros e cs He Hcs IH. rewrite write_switch. cbn [ends_like].
    eapply (w_switch true (kw ($"switch")) (po :: full e ++ [pc]) (full e) (bo :: write_labels cs ++ [bc]));
      [apply kw_keyword|apply parens_around|apply full_expr; exact He|apply curly_around|exact IH].
  - intros l cs Hl IHl Hcs IHc. rewrite write_try. cbn [ends_like].
    eapply (w_try true (kw ($"try")) (bo :: write_list l ++ [bc])); [apply kw_keyword|apply curly_around|apply not_lax|exact IHl|exact IHc].
  - intros c b Hc Hb IH. cbn [write ends_like]. eapply (w_while true (kw ($"while")) (po :: full c ++ [pc]));
      [apply kw_keyword|apply parens_around|apply full_expr; exact Hc|exact IH].
  - intros l Hl IH. rewrite write_block. cbn [ends_like]. eapply w_block; [apply curly_around|apply not_lax|exact IH].
  - constructor.
  - intros s l Hs IHs Hl IHl. cbn [write_list]. unfold separator. destruct (ends_like s) eqn:Es.
    + apply wl_full with Full; [exact IHs|discriminate|exact IHl].
    + apply wl_full with OpenIf; [exact IHs|discriminate|exact IHl].
    + apply (wl_semi true (write s) s semi); [exact IHs|reflexivity|exact IHl].
  - constructor.
  - intros [x|] l cs Hx Hl IHl Hcs IHc; cbn [write_labels].
    + eapply (wc_case true (kw ($"case")) (full x) x colon (bo :: write_list l ++ [bc]));
        [apply kw_keyword|apply full_expr; exact Hx|reflexivity|apply curly_around|apply not_lax|exact IHl|exact IHc].
    + eapply (wc_default true (kw ($"default")) colon (bo :: write_list l ++ [bc]));
        [apply kw_keyword|reflexivity|apply curly_around|apply not_lax|exact IHl|exact IHc].
  - constructor.
  - intros [d|] l cs Hl IHl Hcs IHc; cbn [write_handlers].
    + eapply (wk_catch true (kw ($"catch")) (po :: write_type d ++ [pc]) (write_type d) d (bo :: write_list l ++ [bc]));
        [split; reflexivity|apply parens_around|apply write_named|apply curly_around|apply not_lax|exact IHl|exact IHc].
    + eapply (wk_catch_all true (kw ($"catch")) (bo :: write_list l ++ [bc]));
        [split; reflexivity|apply curly_around|apply not_lax|exact IHl|exact IHc].
  - intros l Hl IHl. cbn [write_handlers].
    eapply (wk_finally true (kw ($"finally")) (bo :: write_list l ++ [bc]));
        [split; reflexivity|apply curly_around|apply not_lax|exact IHl|constructor|reflexivity].
Qed.

(** The tokens of these texts are well made. *)
Ltac made := repeat first [apply Forall_nil; exact I|apply Forall_cons; split; [apply wtok_made|]|apply Forall_app; split|apply full_made|assumption].
Lemma word_made ty w : Forall well_made (opt_word ty w).
Proof. destruct w; cbn [opt_word]; made. Qed.
Lemma type_made d : Forall well_made (write_type d).
Proof. unfold write_type. made; apply word_made. Qed.
Lemma opt_made x : Forall well_made (write_opt x).
Proof. destruct x; cbn [write_opt]; made. Qed.
Lemma simple_made s : simple s -> says s -> Forall well_made (write s).
Proof.
  intros Hs H. destruct H; try contradiction Hs; clear Hs; cbn [write]; made; try (destruct x); made; try apply type_made; try apply word_made.
Qed.
Theorem writes_made :
  (forall s, says s -> Forall well_made (write s)) /\
  (forall l, says_all l -> Forall well_made (write_list l)) /\
  (forall cs, says_cases cs -> Forall well_made (write_labels cs)) /\
  (forall cs, says_clauses cs -> Forall well_made (write_handlers cs)).
Proof.
  apply says_mut; intros; cbn [write_list write_labels write_handlers];
    rewrite ?write_switch, ?write_try, ?write_block; try (apply simple_made; [exact I|constructor; assumption]);
    cbn [write]; made; try apply opt_made; try apply word_made.
  - destruct m; made.
  - destruct i as [i|]; [destruct (a i eq_refl); apply simple_made; assumption|made].
  - destruct u as [u|]; [destruct (a0 u eq_refl); apply simple_made; assumption|made].
  - unfold separator. destruct (ends_like s); made.
  - destruct x; made.
  - destruct d; made; apply word_made.
Qed.
