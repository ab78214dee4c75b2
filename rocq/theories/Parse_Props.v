(** Properties of brackets, blocks and expressions: C18-C22. *)
From Coq Require Import Floats.SpecFloat.
From Verif Require Import Base Base_Proofs Text_Model Tok_Model Tok_Spec.
From Verif Require Import TypeTable TypeSys_Model Value_Model Parse_Model Parse_Spec Parse_Brackets Parse_Complete Parse_Sound
  Parse_Accepts Parse_Ends Parse_Tokens Parse_Print.

(** An environment: int variables a b c, object variable o, type int, method f on two ints. *)
Definition ex_fio : fio := FIO (fun _ => []) (fun _ => []) (fun _ => S754_nan) (fun _ => S754_nan).
Definition ex_table : table := define_all [] [(t_int, MATH_ADDITION, t_int, t_int); (t_int, MATH_MULTIPLY, t_int, t_int);
  (t_int, MATH_SUBTRACT, t_int, t_int); (t_int, COMPARE_LESS, t_int, t_bool); (t_int, COMPARE_EQUAL, t_int, t_bool); (t_int, MATH_MODULO, t_int, t_int);
  (t_bool, COMPARE_EQUAL, t_bool, t_bool); (t_int, MATH_SUBTRACT, t_unary, t_int); (t_int, OPERATOR_SHIFT_LEFT, t_int, t_int);
  (t_int, COMPARE_GREATER_EQUAL, t_int, t_bool); (t_bool, AND, t_bool, t_bool); (t_int, ASSIGN, t_int, t_int); (t_bool, ASSIGN, t_bool, t_bool)].
Definition ex_env : penv := PEnv ex_table
  (fun x => if str_eqb x ($"f") then Some KMethod else if str_eqb x ($"int") then Some (KType t_int true)
            else if str_eqb x ($"p") then Some (KVar t_bool true) else Some (KVar t_int true))
  (fun f l => if (length l =? 2)%nat || (length l =? 1)%nat then Some t_int else None) (fun _ _ _ => None) (fun _ => true) ex_fio.
Definition read (text : str) : res (pexpr * list token) :=
  let! ts := tokenize text in parse_expression ex_env 300 ts.

(** ** C18: the sanity check *)
Theorem C18_accepts_iff ts :
  sanity_check ts = Ok tt <->
  occurrences BRACKET_OPEN ts = occurrences BRACKET_CLOSE ts /\
  occurrences BRACKET_CURLY_OPEN ts = occurrences BRACKET_CURLY_CLOSE ts /\
  occurrences PARENTHESIS_OPEN ts = occurrences PARENTHESIS_CLOSE ts /\
  Nat.even (occurrences QUOTATION_DOUBLE ts) = true.
Proof.
  unfold sanity_check. rewrite !count_brackets_spec by discriminate. rewrite quotes_open_spec, <- Nat.negb_odd.
  repeat match goal with |- context [negb (?a =? 0)%Z] => destruct (Z.eqb_spec a 0); cbn [negb] end;
    try (split; [discriminate|]; intros (? & ? & ? & ?); lia).
  cbn [xorb]. destruct (Nat.odd _); cbn [negb].
  - split; [discriminate|]. intros (_ & _ & _ & ?). discriminate.
  - split; [intros _|reflexivity]. repeat split; lia.
Qed.
Print Assumptions C18_accepts_iff.
Theorem C18_rejects ts : sanity_check ts = Ok tt \/ sanity_check ts = Throw "SanityCheckError".
Proof. unfold sanity_check. repeat (destruct (negb _); [right; reflexivity|]). destruct (quotes_open _ _); auto. Qed.
Print Assumptions C18_rejects.
Lemma occurrences_app ty a b : occurrences ty (a ++ b) = (occurrences ty a + occurrences ty b)%nat.
Proof. unfold occurrences. rewrite List.filter_app, app_length. reflexivity. Qed.
Lemma occurrences_cons ty t l : occurrences ty (t :: l) = ((if ttype_eqb (k_type t) ty then 1 else 0) + occurrences ty l)%nat.
Proof. unfold occurrences. cbn [List.filter]. destruct (ttype_eqb _ _); reflexivity. Qed.
Theorem C18_well_bracketed ts : bracketed ts -> sanity_check ts = Ok tt.
Proof.
  intros H. apply C18_accepts_iff.
  assert (forall op cl, (op, cl) ∈ bracket_kinds -> occurrences op ts = occurrences cl ts) as E.
  { induction H as [|t l Ht Hl IH|o b c l Hk Hb IHb Hl IHl]; intros op cl K; [reflexivity| |].
    - rewrite !occurrences_cons, (IH op cl K).
      repeat (apply elem_of_cons in K as [K|K];
        [injection K as -> ->; rewrite !(proj2 (ttype_eqb_neq _ _)); [reflexivity|intros E; apply Ht; rewrite E; apply ty_in_spec; reflexivity..]|]).
      inversion K.
    - rewrite !occurrences_cons, !occurrences_app, !occurrences_cons, (IHb op cl K), (IHl op cl K). clear - Hk K.
      unfold bracket_kinds in *.
      repeat (apply elem_of_cons in K as [K|K]; [injection K as -> ->|]); [..|inversion K];
      (repeat (apply elem_of_cons in Hk as [Hk|Hk]; [injection Hk as -> ->; cbn; lia|]); inversion Hk). }
  assert (occurrences QUOTATION_DOUBLE ts = 0%nat) as Q.
  { clear E. induction H as [|t l Ht Hl IH|o b c l Hk Hb IHb Hl IHl]; [reflexivity| |].
    - rewrite occurrences_cons, IH, (proj2 (ttype_eqb_neq _ _)); [reflexivity|]. intros E; apply Ht; rewrite E; apply ty_in_spec; reflexivity.
    - rewrite !occurrences_cons, !occurrences_app, !occurrences_cons, IHb, IHl. unfold bracket_kinds in *.
      repeat (apply elem_of_cons in Hk as [Hk|Hk]; [injection Hk as -> ->; reflexivity|]). inversion Hk. }
  rewrite Q. split; [|split; [|split; [|reflexivity]]]; apply E; unfold bracket_kinds.
  - left.
  - right; left.
  - right; right; left.
Qed.
Print Assumptions C18_well_bracketed.
Definition ob := wtok BRACKET_OPEN ($"[").  Definition cb := wtok BRACKET_CLOSE ($"]").
Definition oc := wtok BRACKET_CURLY_OPEN ($"{").  Definition cc := wtok BRACKET_CURLY_CLOSE ($"}").
Definition nm (x : str) := wtok IDENTIFIER x.
Example C18_ex : bracketed [oc; nm ($"a"); ob; po; pc; cb; cc; po; pc].
Proof.
  apply (br_pair oc [nm ($"a"); ob; po; pc; cb] cc [po; pc]); [apply elem_of_list_In; cbn; tauto| |].
  - apply br_other; [apply ty_in_false; reflexivity|].
    apply (br_pair ob [po; pc] cb []); [apply elem_of_list_In; cbn; tauto| |constructor].
    apply (br_pair po [] pc []); [apply elem_of_list_In; cbn; tauto|constructor|constructor].
  - apply (br_pair po [] pc []); [apply elem_of_list_In; cbn; tauto|constructor|constructor].
Qed.
(** The check counts: brackets in the wrong order or crossing each other pass. *)
Theorem C18_order_refuted : sanity_check [pc; po] = Ok tt /\ ~ bracketed [pc; po] /\ sanity_check [po; ob; pc; cb] = Ok tt.
Proof.
  split; [reflexivity|]. split; [|reflexivity]. intros H. inversion H as [|? ? Ht _|o b c l Hk Hb Hl E].
  - apply Ht. apply ty_in_spec. reflexivity.
  - subst. unfold bracket_kinds in Hk. cbn [k_type pc wtok] in Hk.
    repeat (apply elem_of_cons in Hk as [Hk|Hk]; [discriminate|]). inversion Hk.
Qed.
Print Assumptions C18_order_refuted.

(** ** C19: blocks *)
Theorem C19_tree_generator ts body rest :
  collect_scope ts = Ok (body, rest) <->
  exists o c r, ts = o :: body ++ c :: r /\ rest = c :: r /\ k_type o = BRACKET_CURLY_OPEN /\
    k_type c = BRACKET_CURLY_CLOSE /\ nested BRACKET_CURLY_OPEN BRACKET_CURLY_CLOSE body.
Proof. apply collect_scope_iff. Qed.
Print Assumptions C19_tree_generator.
Theorem C19_parser ts body rest :
  parser_collect_scope ts = Ok (body, rest) <->
  exists o c r, ts = o :: body ++ c :: r /\ rest = c :: r /\ k_type o = BRACKET_CURLY_OPEN /\
    k_type c = BRACKET_CURLY_CLOSE /\ nested BRACKET_CURLY_OPEN BRACKET_CURLY_CLOSE body.
Proof. apply parser_collect_iff. Qed.
Print Assumptions C19_parser.
(** The matching bracket is unique, so at most one block is returned. *)
Theorem C19_unique op cl b c r b' c' r' : op <> cl -> b ++ c :: r = b' ++ c' :: r' ->
  nested op cl b -> nested op cl b' -> k_type c = cl -> k_type c' = cl -> b = b' /\ c = c' /\ r = r'.
Proof.
  intros Hoc E Hb Hb' Hc Hc'.
  assert (N : forall b, nested op cl b -> forall x y, b = x ++ y -> (occurrences cl x <= occurrences op x)%nat).
  { clear - Hoc. induction 1 as [|t l H1 H2 H IH|o a c l H1 H2 Ha IHa Hl IHl]; intros x y E.
    - destruct x; [reflexivity|discriminate].
    - destruct x as [|u x]; [cbn; lia|]. injection E as <- E. rewrite !occurrences_cons.
      rewrite (proj2 (ttype_eqb_neq _ _) H1), (proj2 (ttype_eqb_neq _ _) H2). cbn. eapply IH; eauto.
    - destruct x as [|u x]; [cbn; lia|]. injection E as <- E. rewrite !occurrences_cons, H1, ttype_eqb_refl.
      rewrite (proj2 (ttype_eqb_neq op cl) Hoc).
      destruct (Nat.le_gt_cases (length x) (length a)) as [L|L].
      + assert (exists y', a = x ++ y') as [y' Ea].
        { exists (drop (length x) a). rewrite <- (take_drop (length x) a) at 1. f_equal.
          apply (f_equal (take (length x))) in E. rewrite take_app_le in E by exact L. rewrite take_app in E. exact E. }
        pose proof (IHa _ _ Ea). lia.
      + assert (exists x', x = a ++ c :: x' /\ l = x' ++ y) as (x' & -> & ->).
        { apply app_eq_inv in E as [(k & E1 & E2)|(k & E1 & E2)].
          - rewrite E1, app_length in L. lia.
          - destruct k as [|v k]; [rewrite E1, app_nil_r in L; lia|]. injection E2 as <- E2. exists k. auto. }
        rewrite !occurrences_app, !occurrences_cons, H2, ttype_eqb_refl, (proj2 (ttype_eqb_neq cl op)) by congruence.
        pose proof (IHa a [] ltac:(rewrite app_nil_r; reflexivity)). pose proof (IHl x' y eq_refl).
        assert (occurrences cl a = occurrences op a) by (symmetry; apply nested_counts; assumption). lia. }
  apply app_eq_inv in E as [(k & E1 & E2)|(k & E1 & E2)]; destruct k as [|v k].
  - cbn in E2. rewrite app_nil_r in E1. injection E2 as <- <-. auto.
  - exfalso. injection E2 as <- E2. pose proof (N b Hb (b' ++ [c']) k ltac:(rewrite E1, <- app_assoc; reflexivity)) as L.
    rewrite !occurrences_app, !occurrences_cons, Hc', ttype_eqb_refl, (proj2 (ttype_eqb_neq cl op)) in L by congruence.
    pose proof (nested_counts op cl b' Hoc Hb'). cbn in L. lia.
  - cbn in E2. rewrite app_nil_r in E1. injection E2 as <- <-. auto.
  - exfalso. injection E2 as <- E2. pose proof (N b' Hb' (b ++ [c]) k ltac:(rewrite E1, <- app_assoc; reflexivity)) as L.
    rewrite !occurrences_app, !occurrences_cons, Hc, ttype_eqb_refl, (proj2 (ttype_eqb_neq cl op)) in L by congruence.
    pose proof (nested_counts op cl b Hoc Hb). cbn in L. lia.
Qed.
Print Assumptions C19_unique.

(** Bracket search returns the matching bracket (the terminator type does not occur in programs). *)
Theorem C19_search_parenthesis b c r : nested PARENTHESIS_OPEN PARENTHESIS_CLOSE b -> k_type c = PARENTHESIS_CLOSE ->
  Forall (fun t => k_type t <> NIL) b -> find_parenthesis (b ++ c :: r) = Ok (c :: r).
Proof. intros. apply find_match; auto; discriminate. Qed.
Print Assumptions C19_search_parenthesis.
Theorem C19_search_bracket b c r : nested BRACKET_OPEN BRACKET_CLOSE b -> k_type c = BRACKET_CLOSE ->
  Forall (fun t => k_type t <> NIL) b -> find_bracket (b ++ c :: r) = Ok (c :: r).
Proof. intros. apply find_match; auto; discriminate. Qed.
Print Assumptions C19_search_bracket.
Theorem C19_search_found ts s : Forall (fun t => k_type t <> NIL) ts -> find_parenthesis ts = Ok s ->
  exists b c r, ts = b ++ c :: r /\ s = c :: r /\ k_type c = PARENTHESIS_CLOSE /\ nested PARENTHESIS_OPEN PARENTHESIS_CLOSE b.
Proof.
  intros F H. unfold find_parenthesis in H. apply find_inv in H; [|discriminate|lia].
  destruct H as [(b & c & r & -> & -> & Hc & Hb & _)|(_ & t & Ht & Hn)].
  - exists b, c, r. inversion Hb; subst. auto.
  - rewrite Forall_forall in F. destruct (F t Ht Hn).
Qed.
Print Assumptions C19_search_found.
Example C19_ex : collect_scope [oc; nm ($"a"); oc; oc; cc; cc; cc; nm ($"b")] = Ok ([nm ($"a"); oc; oc; cc; cc], [cc; nm ($"b")]).
Proof. reflexivity. Qed.

(** ** C20: expressions *)
(** If a fully parenthesised text is accepted, it is consumed exactly and the tree has its structure. *)
Theorem C20_parenthesised env n x p t r rest :
  writable x -> well_made t -> ~ continues Open t -> (10 * length (full x ++ t :: r) + 6 < n)%nat ->
  parse_expression env n (full x ++ t :: r) = Ok (p, rest) ->
  rest = t :: r /\ tree_of (pe_io env) p x.
Proof.
  intros W Wt C Hn H. assert (D : denotes true (Lvl 3) Closed (full x) x) by (apply lift_level, term_infix, full_denotes; exact W).
  rewrite (reads_now env _ _ x t r n D (full_made x) Wt C Hn) in H. unfold done in H. ib H. injection H as <- <-.
  split; [reflexivity|]. eapply (proj1 (elab_tree env true)); eauto.
Qed.
Print Assumptions C20_parenthesised.
(** It is accepted whenever its operators, names and calls have types ([elab] is the typing of the tree), and the
    error is the typing error otherwise. *)
Theorem C20_accepted env n x t r :
  writable x -> well_made t -> ~ continues Open t -> (10 * length (full x ++ t :: r) + 6 < n)%nat ->
  parse_expression env n (full x ++ t :: r) = let! p := elab env x in Ok (p, t :: r).
Proof.
  intros W Wt C Hn. assert (D : denotes true (Lvl 3) Closed (full x) x) by (apply lift_level, term_infix, full_denotes; exact W).
  apply (reads_now env _ _ x t r n D (full_made x) Wt C Hn).
Qed.
Print Assumptions C20_accepted.
Lemma semicolon_stops : forall t, k_type t = SEMICOLON -> ~ continues Open t.
Proof.
  intros t Es. unfold continues. rewrite Es. intros [[j Hj]|[H|[_ H]]].
  - destruct j as [|[|[|j]]]; apply ty_in_spec in Hj; discriminate.
  - apply ty_in_spec in H. discriminate.
  - apply ty_in_spec in H. discriminate.
Qed.
Definition ex_x : sx := XBin 3 AND ($"&&") (XBin 2 COMPARE_LESS ($"<")
  (XBin 0 MATH_MULTIPLY ($"*") (XBin 1 MATH_ADDITION ($"+") (XLit CONST_INTEGER ($"1")) (XName ($"a"))) (XCall ($"f") [XName ($"b"); XName ($"c")]))
  (XTern (XName ($"p")) (XName ($"a")) (XLit CONST_INTEGER ($"7")))) (XNot ($"!") (XName ($"p"))).
Example C20_ex : writable ex_x /\ well_made (wtok SEMICOLON ($";")) /\ ~ continues Open (wtok SEMICOLON ($";")) /\
  exists p, elab ex_env ex_x = Ok p /\ parse_expression ex_env 700 (full ex_x ++ [wtok SEMICOLON ($";")]) = Ok (p, [wtok SEMICOLON ($";")]).
Proof.
  split; [|split; [apply wtok_made|split; [apply semicolon_stops; reflexivity|]]].
  - unfold ex_x. repeat first [apply w_bin; [lia|apply ty_in_spec; reflexivity| |]|apply w_not|apply w_tern|apply w_name|apply w_lit; apply ty_in_spec; reflexivity|apply w_call].
    intros a Ha. repeat (apply elem_of_cons in Ha as [->|Ha]; [apply w_name|]). inversion Ha.
  - eexists. split; [vm_compute; reflexivity|]. vm_compute. reflexivity.
Qed.
(** Whatever is accepted is, up to the exact end of the consumed tokens, a text of the (loose) grammar with that tree. *)
Theorem C20_sound env n ts p rest :
  Forall good ts -> parse_expression env n ts = Ok (p, rest) ->
  exists ts1 e x, ts = ts1 ++ rest /\ denotes false (Lvl 3) e ts1 x /\ tree_of (pe_io env) p x.
Proof.
  intros G H. destruct (accepts env n (WLevel 3) ts p rest G H) as (ts1 & e & x & -> & D & EL).
  exists ts1, e, x. split; [reflexivity|]. split; [exact D|]. eapply (proj1 (elab_tree env false)); eauto.
Qed.
Print Assumptions C20_sound.
(** The hypothesis of the previous theorem holds for the output of the tokenizer. *)
Theorem C20_source_tokens text raw l :
  raw_tokens text = Ok raw -> (forall t, t ∈ raw -> ~ (k_type t = RESERVED_WORD /\ k_text t = $"operator")) ->
  tokenize text = Ok l -> Forall good l.
Proof. apply tokens_good. Qed.
Print Assumptions C20_source_tokens.
(** Reading an expression ends, whatever the tokens are; beyond the bound, fuel has no influence. *)
Theorem C20_terminates env n ts : (10 * length ts + 6 < n)%nat -> parse_expression env n ts <> Fuel.
Proof. intros. apply ends; cbn [known rank]; lia. Qed.
Print Assumptions C20_terminates.
Theorem C20_fuel_irrelevant env n m ts : (10 * length ts + 6 < n)%nat -> (n <= m)%nat ->
  parse_expression env m ts = parse_expression env n ts.
Proof. intros Hn L. eapply more_fuel_le; [exact L|apply C20_terminates; exact Hn|reflexivity]. Qed.
Print Assumptions C20_fuel_irrelevant.
Example C20_source_ex : exists p r, read ($"(1 + a) * f(b, c - 2) ; ") = Ok (p, r) /\ map k_type r = [SEMICOLON; ENDOFFILE].
Proof. eexists _, _. split; [vm_compute; reflexivity|reflexivity]. Qed.
(** Stray tokens behind an argument are skipped, and so is a trailing comma. *)
Theorem C20_stray_argument_refuted :
  (exists p r r', read ($"f(a + 1 b c, 2) ; ") = Ok (p, r) /\ read ($"f(a + 1, 2) ; ") = Ok (p, r') /\ map k_type r = map k_type r').
Proof. eexists _, _, _. split; [vm_compute; reflexivity|]. split; [vm_compute; reflexivity|reflexivity]. Qed.
Print Assumptions C20_stray_argument_refuted.
Theorem C20_trailing_comma_refuted :
  (exists p r r', read ($"f(a, ) ; ") = Ok (p, r) /\ read ($"f(a) ; ") = Ok (p, r') /\ map k_type r = map k_type r').
Proof. eexists _, _, _. split; [vm_compute; reflexivity|]. split; [vm_compute; reflexivity|reflexivity]. Qed.
Print Assumptions C20_trailing_comma_refuted.
(** Malformed texts can make the reader run past the end of the token list or follow a null pointer:
    a stray token behind the last argument, and a value behind a variable. *)
Theorem C20_undefined_refuted : read ($"f(a b) ; ") = UB /\ read ($"a 5 ; ") = UB.
Proof. split; vm_compute; reflexivity. Qed.
Print Assumptions C20_undefined_refuted.

(** ** C21: precedence and associativity *)
(** Every text of the unambiguous grammar is read as the tree it denotes, up to the first token that does not continue it. *)
Theorem C21_grammar env n e ts x t r :
  denotes true (Lvl 3) e ts x -> Forall well_made ts -> well_made t -> ~ continues Open t ->
  (10 * length (ts ++ t :: r) + 6 < n)%nat ->
  parse_expression env n (ts ++ t :: r) = let! p := elab env x in Ok (p, t :: r).
Proof. intros. eapply reads_now; eauto. Qed.
Print Assumptions C21_grammar.
(** Two readings of one text are one typed tree. *)
Theorem C21_unambiguous env e1 e2 ts x y : Forall well_made ts ->
  denotes true (Lvl 3) e1 ts x -> denotes true (Lvl 3) e2 ts y -> elab env x = elab env y.
Proof.
  intros W D1 D2. set (t := wtok SEMICOLON ($";")). set (n := (10 * length (ts ++ [t]) + 7)%nat).
  assert (S : ~ continues Open t) by (apply semicolon_stops; reflexivity).
  pose proof (C21_grammar env n e1 ts x t [] D1 W (wtok_made _ _) S ltac:(lia)) as H1.
  pose proof (C21_grammar env n e2 ts y t [] D2 W (wtok_made _ _) S ltac:(lia)) as H2.
  rewrite H1 in H2. destruct (elab env x), (elab env y); cbn [rbind] in H2; congruence.
Qed.
Print Assumptions C21_unambiguous.
Lemma operand k e ts x : denotes true Infix e ts x -> denotes true (Lvl k) e ts x.
Proof. apply lift_level. Qed.
Lemma bin_intro k e1 ts1 t e2 ts2 x y : denotes true (Lvl k) e1 ts1 x -> e1 <> Open -> k_type t ∈ ops k ->
  denotes true (match k with O => Infix | S j => Lvl j end) e2 ts2 y ->
  denotes true (Lvl k) e2 (ts1 ++ t :: ts2) (XBin k (k_type t) (k_text t) x y).
Proof. intros. destruct k; [eapply d_mul|eapply d_bin]; eauto. Qed.
(** Of two operators between three operands, the one of the stronger level binds first ... *)
Theorem C21_stronger_first i j e1 e2 e3 a b c t u x y z : (j < i)%nat -> (i <= 3)%nat ->
  denotes true Infix e1 a x -> denotes true Infix e2 b y -> denotes true Infix e3 c z -> e1 <> Open -> e2 <> Open ->
  k_type t ∈ ops i -> k_type u ∈ ops j ->
  denotes true (Lvl 3) e3 (a ++ t :: b ++ u :: c)
    (XBin i (k_type t) (k_text t) x (XBin j (k_type u) (k_text u) y z)).
Proof.
  intros Hj Hi D1 D2 D3 N1 N2 Ht Hu. apply (lift_up i); [exact Hi|].
  eapply bin_intro; [apply operand; exact D1|exact N1|exact Ht|].
  destruct i as [|i]; [lia|]. apply (lift_up j); [lia|].
  eapply bin_intro; [apply operand; exact D2|exact N2|exact Hu|]. destruct j; [exact D3|apply operand; exact D3].
Qed.
Print Assumptions C21_stronger_first.
(** ... and if the second is not stronger, the first one does: equal levels associate to the left. *)
Theorem C21_left_first i j e1 e2 e3 a b c t u x y z : (i <= j)%nat -> (j <= 3)%nat ->
  denotes true Infix e1 a x -> denotes true Infix e2 b y -> denotes true Infix e3 c z -> e1 <> Open -> e2 <> Open ->
  k_type t ∈ ops i -> k_type u ∈ ops j ->
  denotes true (Lvl 3) e3 (a ++ t :: b ++ u :: c)
    (XBin j (k_type u) (k_text u) (XBin i (k_type t) (k_text t) x y) z).
Proof.
  intros Hj Hi D1 D2 D3 N1 N2 Ht Hu. apply (lift_up j); [exact Hi|].
  change (a ++ t :: b ++ u :: c) with (a ++ (t :: b) ++ u :: c). rewrite app_assoc.
  eapply bin_intro; [|exact N2|exact Hu|destruct j; [exact D3|apply operand; exact D3]].
  apply (lift_up i); [exact Hj|]. eapply bin_intro; [apply operand; exact D1|exact N1|exact Ht|].
  destruct i; [exact D2|apply operand; exact D2].
Qed.
Print Assumptions C21_left_first.
(** Chains of any length of operators of one level associate to the left, comparisons too. *)
Theorem C21_chain k e ts x l : (k <= 3)%nat -> denotes true (Lvl k) e ts x -> e <> Open ->
  Forall (fun i => k_type (fst (fst i)) ∈ ops k /\ exists e, e <> Open /\
    denotes true (match k with O => Infix | S j => Lvl j end) e (snd (fst i)) (snd i)) l ->
  exists e', e' <> Open /\ denotes true (Lvl k) e' (ts ++ chain_tokens l) (chain_left k x l).
Proof.
  intros Hk D N F. revert e ts x D N. induction F as [|[[t ts1] y] l (Ht & e1 & N1 & D1) F IH]; intros e ts x D N.
  - exists e. cbn. rewrite app_nil_r. auto.
  - cbn [chain_tokens chain_left fold_left fst snd] in *.
    destruct (IH e1 (ts ++ t :: ts1) (XBin k (k_type t) (k_text t) x y)) as (e' & N' & D').
    + eapply bin_intro; eauto.
    + exact N1.
    + exists e'. split; [exact N'|]. rewrite <- app_assoc in D'. exact D'.
Qed.
Print Assumptions C21_chain.
Lemma name_operand x : denotes true Infix Name [nm x] (XName x).
Proof. apply term_infix. apply (d_name true (nm x)). reflexivity. Qed.
Example C21_ex_hypotheses : denotes true (Lvl 3) Name
  ([nm ($"a")] ++ wtok MATH_SUBTRACT ($"-") :: [nm ($"b")] ++ wtok MATH_MULTIPLY ($"*") :: [nm ($"c")])
  (XBin 1 MATH_SUBTRACT ($"-") (XName ($"a")) (XBin 0 MATH_MULTIPLY ($"*") (XName ($"b")) (XName ($"c")))).
Proof.
  eapply (C21_stronger_first 1 0); [lia|lia|apply name_operand|apply name_operand|apply name_operand|discriminate|discriminate| |];
  apply ty_in_spec; reflexivity.
Qed.
(** The same tree with and without the brackets that spell the rules out. *)
Definition tree (r : res (pexpr * list token)) : option pexpr := match r with Ok (p, _) => Some p | _ => None end.
Example C21_ex : tree (read ($"a + b * c - 1 < a % b == p && p || !p ; ")) =
  tree (read ($"(((((a + (b * c)) - 1) < (a % b)) == p) && p) || (!p) ; ")) /\
  is_Some (tree (read ($"a + b * c - 1 < a % b == p && p || !p ; "))).
Proof. split; [vm_compute; reflexivity|]. eexists. vm_compute. reflexivity. Qed.
(** A conditional takes only the operand right in front of it as its condition, and everything behind the
    colon: operators on its left are applied to its value. *)
Theorem C21_conditional k e0 e1 e2 e3 a b c d t q cl x y z w : (k <= 3)%nat ->
  denotes true (Lvl k) e0 a x -> e0 <> Open -> k_type t ∈ ops k ->
  denotes true Prefixed e1 b y -> e1 <> Open -> k_type q = QUESTION_MARK -> denotes true (Lvl 3) e2 c z ->
  k_type cl = COLON -> denotes true (Lvl 3) e3 d w ->
  denotes true (Lvl 3) Open (a ++ t :: b ++ q :: c ++ cl :: d) (XBin k (k_type t) (k_text t) x (XTern y z w)).
Proof.
  intros Hk D0 N0 Ht D1 N1 Hq D2 Hc D3. apply (lift_up k); [exact Hk|].
  assert (T : denotes true Infix Open (b ++ q :: c ++ cl :: d) (XTern y z w)) by (eapply d_tern; eauto).
  eapply bin_intro; eauto. destruct k; [exact T|apply operand; exact T].
Qed.
Print Assumptions C21_conditional.
(** So a comparison in front of a question mark is not the condition. *)
Theorem C21_conditional_refuted :
  tree (read ($"a < b + p ? a : b ; ")) <> tree (read ($"(a < b + p) ? a : b ; ")) /\
  tree (read ($"a < p ? a : b ; ")) = tree (read ($"a < (p ? a : b) ; ")) /\ is_Some (tree (read ($"a < p ? a : b ; "))).
Proof.
  split; [vm_compute; discriminate|]. split; [vm_compute; reflexivity|eexists; vm_compute; reflexivity].
Qed.
Print Assumptions C21_conditional_refuted.

(** ** C22: printed expressions *)
(** A tree that was read is printed to a text that reads as this tree if no part of it needs brackets ([bare]): whole numbers,
    texts, names, calls, casts, typeid, assignments, prefixes, conditionals, [is], and all operators that are printed as
    they are written. Missing: numbers with a fraction, whose text is the C library's; the other forms are refuted below. *)
Theorem C22_print_reads_partial env m us p rest' e n :
  Forall good us -> parse_expression env m us = Ok (p, rest') -> bare env (Lvl 3) e p ->
  exists ts rest, tokenize (print_pexpr (pe_io env) p ++ $" ; ") = Ok (ts ++ rest) /\
    map k_type rest = [SEMICOLON; ENDOFFILE] /\
    ((10 * length (ts ++ rest) + 6 < n)%nat -> parse_expression env n (ts ++ rest) = Ok (p, rest)).
Proof.
  intros G H B. destruct (accepts env m (WLevel 3) us p rest' G H) as (ts1 & e1 & x & _ & D & EL).
  apply (print_reads env e p n B). eapply (proj1 (elab_typed env false)); eauto.
Qed.
Print Assumptions C22_print_reads_partial.
(** Brackets and negations are lost: different trees with one printed text. *)
Definition printed (text : str) : option str := option_map (print_pexpr ex_fio) (tree (read text)).
Theorem C22_brackets_refuted :
  printed ($"(a + b) * c ; ") = printed ($"a + b * c ; ") /\ is_Some (printed ($"a + b * c ; ")) /\
  tree (read ($"(a + b) * c ; ")) <> tree (read ($"a + b * c ; ")).
Proof. split; [vm_compute; reflexivity|]. split; [eexists; vm_compute; reflexivity|vm_compute; discriminate]. Qed.
Print Assumptions C22_brackets_refuted.
Theorem C22_unequal_refuted :
  printed ($"a != b ; ") = printed ($"a == b ; ") /\ is_Some (printed ($"a == b ; ")) /\
  tree (read ($"a != b ; ")) <> tree (read ($"a == b ; ")).
Proof. split; [vm_compute; reflexivity|]. split; [eexists; vm_compute; reflexivity|vm_compute; discriminate]. Qed.
Print Assumptions C22_unequal_refuted.
Example C22_ex : printed ($"a + b * c - d < a % b ; ") = Some ($"a + b * c - d < a % b").
Proof. vm_compute. reflexivity. Qed.
(** The printed text read again: the same tree, another one, or an error. *)
Definition reread (text : str) : option (option pexpr) := option_map (fun s => tree (read (s ++ $" ; "))) (printed text).
Theorem C22_lost_refuted :
  (* true is printed as 1 *)
  reread ($"true ; ") <> Some (tree (read ($"true ; "))) /\ printed ($"true ; ") = Some ($"1") /\
  (* a step behind a value is printed in front of it *)
  reread ($"a++ ; ") <> Some (tree (read ($"a++ ; "))) /\ printed ($"a++ ; ") = Some ($"++a") /\
  (* two minus signs become one decrement, in spite of the blank between them *)
  reread ($"a - (-b) ; ") <> Some (tree (read ($"a - (-b) ; "))) /\ printed ($"a - (-b) ; ") = Some ($"a - -b") /\
  (* the left side of ?: is written twice *)
  reread ($"p ?: p ; ") <> Some (tree (read ($"p ?: p ; "))) /\ printed ($"p ?: p ; ") = Some ($"p ? p : p") /\
  (* a cast of a cast *)
  reread ($"int int a ; ") <> Some (tree (read ($"int int a ; "))) /\ printed ($"int int a ; ") = Some ($"( int ( int a ) )").
Proof. repeat split; vm_compute; try reflexivity; discriminate. Qed.
Print Assumptions C22_lost_refuted.
From Verif Require Import Tok_Proofs4 Tok_Proofs5.
Lemma word1 c : (is_delim c = false /\ c <> chr 0) -> is_word [c].
Proof. intros H. apply is_word_spec. split; [discriminate|]. apply Forall_cons. split; [exact H|constructor]. Qed.
Lemma ident1 c : classify_word [c] = (CNone, IDENTIFIER, [c], false) -> is_delim c = false -> c <> chr 0 -> ident [c].
Proof.
  intros E H1 H2. assert (W : is_word [c]) by (apply word1; auto). split; [exact W|]. pose proof (classify_word_spelled [c] W) as H.
  rewrite E in H. exact H.
Qed.
Lemma bare_infix env e p k : bare env Infix e p -> bare env (Lvl k) e p.
Proof. intros H. induction k; [apply b_infix; exact H|apply b_level; exact IHk]. Qed.
Lemma bare_term env e p k : bare env Term e p -> bare env (Lvl k) e p.
Proof. intros H. apply bare_infix, b_prefixed, b_term, H. Qed.
Example C22_ex_hypotheses : exists us p rest,
  let text := $"a + f(( int b ), 2) * -c << 3 >= b && p ? !p : p = a < b ; " in
  tokenize text = Ok us /\ Forall good us /\ parse_expression ex_env 300 us = Ok (p, rest) /\
  print_pexpr ex_fio p ++ $" ; " = text /\ bare ex_env (Lvl 3) Open p.
Proof.
  destruct (tokenize ($"a + f(( int b ), 2) * -c << 3 >= b && p ? !p : p = a < b ; ")) as [us| | |] eqn:E; try (vm_compute in E; discriminate E).
  exists us. vm_compute in E. injection E as <-.
  eexists _, _. cbn zeta. split; [vm_compute; reflexivity|]. split; [|split; [vm_compute; reflexivity|]].
  - repeat (apply Forall_cons; split; [apply good_intro; reflexivity|]). constructor.
  - split; [vm_compute; reflexivity|].
    assert (N : forall c k, c ∈ ($"abcfp") -> bare ex_env Term Name (PSym [c] k)).
    { intros c k Hc. apply b_name. repeat (apply elem_of_cons in Hc as [->|Hc]; [apply ident1; (reflexivity || discriminate)|]). inversion Hc. }
    assert (I : ident ($"int")).
    { split; [destruct (known_word ($"int")) as [K|K]; [exact K|destruct K; reflexivity]|].
      assert (W : is_word ($"int")) by (destruct (known_word ($"int")) as [K|K]; [exact K|destruct K; reflexivity]).
      exact (classify_word_spelled ($"int") W). }
    apply b_bool with (e1 := Name); [auto|apply elem_of_list_In; cbn; tauto| |discriminate|].
    + apply b_level. apply b_bool with (e1 := Closed); [auto|apply elem_of_list_In; cbn; tauto| |discriminate|apply bare_term, N, elem_of_list_In; cbn; tauto].
      apply b_level. apply b_add with (e1 := Name); [apply elem_of_list_In; cbn; tauto| |discriminate| |discriminate].
      * apply b_add with (e1 := Name); [apply elem_of_list_In; cbn; tauto|apply bare_term, N, elem_of_list_In; cbn; tauto|discriminate| |discriminate].
        apply b_mul with (e1 := Closed); [apply elem_of_list_In; cbn; tauto| |discriminate|].
        -- apply bare_term, b_call; [apply ident1; (reflexivity || discriminate)|].
           apply bs_cons with (e := Closed); [|apply bs_cons with (e := Closed); [|apply bs_nil]].
           ++ apply bare_term. apply b_cast with (a := true) (e := Name); [exact I|reflexivity|apply bare_term, N, elem_of_list_In; cbn; tauto|left].
           ++ apply bare_term. apply (b_int ex_env 2). unfold int64_max. lia.
        -- apply b_prefixed, b_sign; [apply elem_of_list_In; cbn; tauto|apply N, elem_of_list_In; cbn; tauto].
      * apply bare_term. apply (b_int ex_env 3). unfold int64_max. lia.
    + apply bare_infix. apply b_tern with (e := Name) (e1 := Name) (e2 := Open); [apply b_term, N, elem_of_list_In; cbn; tauto|discriminate| |].
      * apply bare_infix, b_prefixed, b_not, N, elem_of_list_In; cbn; tauto.
      * apply bare_term, b_assign with (e := Name); [apply ident1; (reflexivity || discriminate)|]. apply b_level.
        apply b_bool with (e1 := Name); [auto|apply elem_of_list_In; cbn; tauto|apply bare_term, N, elem_of_list_In; cbn; tauto|discriminate|].
        apply bare_term, N, elem_of_list_In; cbn; tauto.
Qed.
