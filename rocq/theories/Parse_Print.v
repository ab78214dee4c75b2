(** Printed expressions and the tokenizer. *)
From Coq Require Import Floats.SpecFloat.
From Verif Require Import Base Base_Proofs Text_Model Text_Proofs Tok_Model Tok_Spec Tok_Proofs Tok_Proofs2 Tok_Proofs3 Tok_Proofs4 Tok_Props.
From Verif Require Import TypeTable TypeSys_Model Value_Model Parse_Model Parse_Spec Parse_Brackets Parse_Complete Parse_Sound
  Parse_Accepts Parse_Ends Parse_Tokens.

(** ** Specification: trees whose printed text needs no brackets *)
Definition ident (x : str) : Prop := is_word x /\ spelled x IDENTIFIER x.
(** The infix operators that are printed as they are written, by level. *)
Definition plain_ops (k : nat) : list (str * ttype) :=
  match k with
  | 0 => [($"*", MATH_MULTIPLY); ($"/", MATH_DIVIDE); ($"%", MATH_MODULO)]
  | 1 => [($"+", MATH_ADDITION); ($"-", MATH_SUBTRACT); ($"&", BITAND); ($"|", BITOR);
          ($"<<", OPERATOR_SHIFT_LEFT); ($">>", OPERATOR_SHIFT_RIGHT)]
  | 2 => [($"<", COMPARE_LESS); ($">", COMPARE_GREATER); ($"<=", COMPARE_LESS_EQUAL); ($">=", COMPARE_GREATER_EQUAL);
          ($"==", COMPARE_EQUAL)]
  | 3 => [($"&&", AND); ($"||", OR); ($"!&", NAND); ($"!|", NOR)]
  | _ => []
  end%nat.
(** The type of the first token of the printed text. *)
Fixpoint front (p : pexpr) : ttype :=
  match p with
  | PLit v => match o_val v with AStr _ => CONST_LITERAL | _ => CONST_INTEGER end
  | PBin _ _ a _ _ | PBool _ _ a _ | PTern a _ _ | PElvis a _ | PIs a _ => front a
  | PUn op _ _ _ => op
  | PNot _ _ => OPERATOR_NOT
  | PCast _ _ => PARENTHESIS_OPEN
  | PTypeid _ => KEYWORD
  | _ => IDENTIFIER
  end.
(** [bare env pl e p]: printed without brackets, [p] can stand at place [pl] of the grammar and ends like [e].
    - literals are whole numbers and texts without quotation marks, backslashes and NULs;
    - a type of a cast or of [is] has the name it is written with;
    - a left operand does not take in what follows it, a right operand is of a lower level;
    - a plus or minus is not followed by a sign of the same kind, which would be read as ++ or --;
    - what is cast starts with a word or a literal. *)
Inductive bare (env : penv) : place -> ending -> pexpr -> Prop :=
| b_int z : (0 <= z <= int64_max)%Z ->
    bare env Term Closed (PLit (mk (if in_range 32 z then t_int else t_int64) (AInt z)))
| b_text s : (forall c, c ∈ s -> c <> chr 34 /\ c <> chr 92 /\ c <> chr 0) -> bare env Term Closed (PLit (mk t_string (AStr s)))
| b_name x k : ident x -> bare env Term Name (PSym x k)
| b_call f ps t : ident f -> bares env ps -> bare env Term Closed (PCall f ps t)
| b_cast t a e p : ident t -> pe_name env t = Some (KType t a) -> bare env (Lvl 3) e p ->
    front p ∈ IDENTIFIER :: KEYWORD :: const_types -> bare env Term Closed (PCast t p)
| b_typeid e p : bare env (Lvl 3) e p -> bare env Term Closed (PTypeid p)
| b_assign x k e p t : ident x -> bare env (Lvl 3) e p -> bare env Term Open (PAssign x k p t)
| b_term e p : bare env Term e p -> bare env Prefixed e p
| b_sign op s e p : (s, op) ∈ [($"+", MATH_ADDITION); ($"-", MATH_SUBTRACT)] -> bare env Term e p ->
    bare env Prefixed e (PUn op s false p)
| b_not e p : bare env Term e p -> bare env Prefixed e (PNot ($"!") p)
| b_prefixed e p : bare env Prefixed e p -> bare env Infix e p
| b_is e p t k : bare env Prefixed e p -> e <> Open -> ident t -> pe_name env t = Some k -> sym_type k = t ->
    bare env Infix Closed (PIs p t)
| b_tern e p e1 q e2 r : bare env Prefixed e p -> e <> Open -> bare env (Lvl 3) e1 q -> bare env (Lvl 3) e2 r ->
    bare env Infix Open (PTern p q r)
| b_infix e p : bare env Infix e p -> bare env (Lvl 0) e p
| b_level k e p : bare env (Lvl k) e p -> bare env (Lvl (S k)) e p
| b_mul op s e1 p e2 q t : (s, op) ∈ plain_ops 0 -> bare env (Lvl 0) e1 p -> e1 <> Open -> bare env Infix e2 q ->
    bare env (Lvl 0) e2 (PBin op s p q t)
| b_add op s e1 p e2 q t : (s, op) ∈ plain_ops 1 -> bare env (Lvl 1) e1 p -> e1 <> Open -> bare env (Lvl 0) e2 q ->
    front q <> op -> bare env (Lvl 1) e2 (PBin op s p q t)
| b_bool k op s e1 p e2 q : k = 1%nat \/ k = 2%nat -> (s, op) ∈ plain_ops (S k) -> bare env (Lvl (S k)) e1 p -> e1 <> Open ->
    bare env (Lvl k) e2 q -> bare env (Lvl (S k)) e2 (PBool op s p q)
with bares (env : penv) : list pexpr -> Prop :=
| bs_nil : bares env []
| bs_cons e p ps : bare env (Lvl 3) e p -> bares env ps -> bares env (p :: ps).
Scheme bare_ind2 := Induction for bare Sort Prop
with bares_ind2 := Induction for bares Sort Prop.
Combined Scheme bare_both from bare_ind2, bares_ind2.

(** ** The reader on grammatical texts, with explicit fuel *)
Lemma reads_now env e ts x t r n :
  denotes true (Lvl 3) e ts x -> Forall well_made ts -> well_made t -> ~ continues Open t ->
  (10 * length (ts ++ t :: r) + 6 < n)%nat ->
  parse_expression env n (ts ++ t :: r) = done (elab env x) (t :: r).
Proof.
  intros D W Wt C Hn. pose proof (proj1 (reads env) _ _ _ _ D) as R.
  destruct (reads_whole env e ts x t r R W (stop_continues _ Wt C)) as [n0 H0].
  pose proof (ends env n (WLevel 3) (ts ++ t :: r) ltac:(cbn; lia) ltac:(cbn [rank]; lia)) as F.
  unfold parse_expression. destruct (Nat.le_ge_cases n0 n) as [L|L]; [apply H0; exact L|].
  rewrite <- (H0 n0 (Nat.le_refl _)). symmetry. eapply more_fuel_le; [exact L|exact F|reflexivity].
Qed.

(** ** Trees that were read can be read again *)
Definition olevel (op : ttype) : nat :=
  if ty_in op mul_ops then 0%nat else if ty_in op add_ops then 1%nat else if ty_in op compare_ops then 2%nat else 3%nat.
(** The surface tree of the printed text. *)
Fixpoint canon (p : pexpr) : sx :=
  match p with
  | PLit v => match o_val v with AInt z => XLit CONST_INTEGER (print_int z) | AStr s => XLit CONST_LITERAL s | _ => XName [] end
  | PSym x _ => XName x
  | PBin op s a b _ | PBool op s a b => XBin (olevel op) op s (canon a) (canon b)
  | PUn op s _ a => XSign op s (canon a)
  | PNot s a => XNot s (canon a)
  | PTern c a b => XTern (canon c) (canon a) (canon b)
  | PCast t a => XCast t (canon a)
  | PTypeid a => XTypeid (canon a)
  | PIs a t => XIs (canon a) t
  | PAssign x _ a _ => XAssign x ASSIGN (canon a)
  | PCall f l _ => XCall f (map canon l)
  | _ => XName []
  end.
Section Typed.
Context (env : penv).
(** Every node is the one the checks of the generator give for its operands. *)
Fixpoint typed (p : pexpr) : Prop :=
  match p with
  | PSym x k => pe_name env x = Some k
  | PBin op s a b _ => typed a /\ typed b /\ arith_node env (tok op s) a b = Ok p
  | PBool op s a b => typed a /\ typed b /\ node env (olevel op) (tok op s) a b = Ok p
  | PUn op s false a => typed a /\ (op = MATH_ADDITION \/ op = MATH_SUBTRACT -> sign_node env (tok op s) a = Ok p)
  | PNot (_ :: _) a => typed a
  | PTern c a b => typed c /\ typed a /\ typed b /\ ternary_node c (Some a) b = Ok p
  | PCast _ a | PTypeid a | PIs a _ => typed a
  | PAssign x k a _ => pe_name env x = Some k /\ typed a /\ assign_node env (tok ASSIGN []) x k a = Ok p
  | PCall f l _ => (exists k, pe_name env f = Some k) /\
      (fix go l := match l with [] => True | a :: r => typed a /\ go r end) l /\ call_node env f l = Ok p
  | _ => True
  end.
Definition typeds := fix go l := match l with [] => True | a :: r => typed a /\ go r end.

Lemma olevel_ops k op : op ∈ ops k -> olevel op = (if (k <? 3)%nat then k else 3%nat).
Proof.
  intros H. destruct k as [|[|[|k]]]; cbn [ops] in H; repeat (apply elem_of_cons in H as [->|H]; [reflexivity|]); inversion H.
Qed.
Lemma node_typed k op s a b p : op ∈ ops k -> typed a -> typed b -> node env k (tok op s) a b = Ok p -> typed p.
Proof.
  intros Ho Ha Hb H. pose proof (olevel_ops _ _ Ho) as L. pose proof (node_tree env k op s a b p Ho H) as T.
  assert (A : (k < 2)%nat -> arith_node env (tok op s) a b = Ok p).
  { intros Hk. destruct k as [|[|k]]; [exact H|exact H|lia]. }
  inversion T; subst; cbn [typed]; try exact I.
  - split; [exact Ha|]. split; [exact Hb|]. destruct k as [|[|[|k]]]; cbn [node] in H; try exact H; [|discriminate H].
    exfalso. unfold cmp_node in H. repeat (case_match || ib H); try discriminate H.
  - split; [exact Ha|]. split; [exact Hb|]. rewrite L. destruct k as [|[|[|k]]]; exact H.
Qed.
Lemma assign_typed x op k a p : op ∈ assign_types -> pe_name env x = Some k -> typed a -> assign_node env (tok op []) x k a = Ok p -> typed p.
Proof.
  intros Ho Hx Ha H. unfold assign_node in H. cbn [k_type tok] in H. ib H. rename a0 into b.
  assert (Hb : typed b).
  { destruct (ttype_eqb op ASSIGN) eqn:E1; [injection E as <-; exact Ha|]. destruct (compound op) as [[o s]|]; [|discriminate E].
    destruct (sym_atomic k) eqn:Ek.
    - ib E. injection E as <-. cbn [typed]. split; [exact Hx|]. split; [exact Ha|]. unfold arith_node. cbn [ptype tok k_type psym k_text].
      rewrite E0. cbn [rbind]. rewrite Ek. reflexivity.
    - destruct (negb _); [discriminate E|]. ib E. destruct (pe_opm _ _ _ _); [|discriminate E]. injection E as <-. exact I. }
  destruct (sym_atomic k || _) eqn:E1.
  - ib H. injection H as <-. cbn [typed]. split; [exact Hx|]. split; [exact Hb|]. unfold assign_node. cbn [k_type tok].
    rewrite ttype_eqb_refl. cbn [rbind]. rewrite E1, E0. reflexivity.
  - destruct (negb _); [discriminate H|]. destruct (pe_opm _ _ _ _); [|discriminate H]. injection H as <-. exact I.
Qed.
Theorem elab_typed s :
  (forall p e ts x, denotes s p e ts x -> forall q, elab env x = Ok q -> typed q) /\
  (forall ts l, denotes_args s ts l -> forall qs, elab_args env l = Ok qs -> typeds qs).
Proof.
  assert (N : forall x k, named env x = Ok k -> pe_name env x = Some k).
  { intros x k. unfold named. destruct (pe_name env x); [|discriminate]. intros H. injection H as ->. reflexivity. }
  apply (denotes_both s (fun p e ts x _ => forall q, elab env x = Ok q -> typed q)
                        (fun ts l _ => forall qs, elab_args env l = Ok qs -> typeds qs)); intros;
    try (match goal with H : elab _ _ = Ok _ |- _ => cbn [Parse_Spec.elab] in H; rename H into HE end);
    try assumption; try (match goal with IH : forall q, _ -> typed q |- typed _ => apply IH; exact HE end).
  - destruct (literal _ _ _) eqn:L; [|discriminate]. injection HE as <-. exact I.
  - inv_bind HE. injection HE as <-. apply N. assumption.
  - inv_bind HE. unfold step_node in HE. destruct (sym_atomic _); [|discriminate]. injection HE as <-. exact I.
  - inv_bind HE. fold (elab_args env) in HE. inv_bind HE. pose proof HE as HC. unfold call_node in HE.
    destruct (pe_method _ _ _); [|discriminate]. injection HE as <-. cbn [typed]. split; [eexists; apply N; eassumption|].
    split; [|exact HC]. fold typeds. auto.
  - inv_bind HE. destruct a; try discriminate. inv_bind HE. injection HE as <-. cbn [typed]. auto.
  - inv_bind HE. destruct a; try discriminate. inv_bind HE. unfold cast_node in HE. inv_bind HE.
    injection HE as <-. cbn [typed]. auto.
  - inv_bind HE. injection HE as <-. cbn [typed]. auto.
  - inv_bind HE. inv_bind HE. eapply assign_typed; eauto.
  - inv_bind HE. pose proof HE as HC. unfold sign_node in HE. inv_bind HE. injection HE as <-. cbn [typed]. auto.
  - inv_bind HE. injection HE as <-. cbn [typed]. destruct (k_text t); [exact I|auto].
  - inv_bind HE. injection HE as <-. cbn [typed]. split; [auto|]. intros [C|C]; exfalso;
      match goal with H : k_type t ∈ step_types |- _ => rewrite C in H; apply ty_in_spec in H; discriminate H end.
  - inv_bind HE. injection HE as <-. cbn [typed]. split; [auto|]. intros [C|C]; discriminate C.
  - inv_bind HE. inv_bind HE. injection HE as <-. cbn [typed]. auto.
  - inv_bind HE. inv_bind HE. inv_bind HE. pose proof HE as HC. unfold ternary_node in HE. destruct (str_eqb _ _); [|discriminate].
    injection HE as <-. cbn [typed]. auto.
  - inv_bind HE. inv_bind HE. unfold ternary_node in HE. destruct (str_eqb _ _); [|discriminate].
    injection HE as <-. exact I.
  - inv_bind HE. inv_bind HE. eapply node_typed; [| | |exact HE]; eauto.
  - inv_bind HE. inv_bind HE. eapply node_typed; [| | |exact HE]; eauto.
  - match goal with H : elab_args _ _ = Ok _ |- _ => cbn [elab_args] in H; injection H as <- end. exact I.
  - match goal with H : elab_args _ _ = Ok _ |- _ => cbn [elab_args] in H; inv_bind H; cbn [rbind] in H; injection H as <- end.
    cbn [typeds]. auto.
  - match goal with H : elab_args _ _ = Ok _ |- _ => cbn [elab_args] in H; inv_bind H; inv_bind H; injection H as <- end.
    cbn [typeds]. auto.
Qed.

Lemma plain_level k op s : (s, op) ∈ plain_ops k -> op ∈ ops k /\ (k < 4)%nat /\ olevel op = k.
Proof.
  intros H. destruct k as [|[|[|[|k]]]]; cbn [plain_ops] in H; [..|inversion H];
    repeat (apply elem_of_cons in H as [H|H]; [injection H as -> ->; split; [apply ty_in_spec; reflexivity|split; [lia|reflexivity]]|]); inversion H.
Qed.
Theorem bare_elab :
  (forall pl e p, bare env pl e p -> typed p -> elab env (canon p) = Ok p) /\
  (forall ps, bares env ps -> typeds ps -> elab_args env (map canon ps) = Ok ps).
Proof.
  apply (bare_both env (fun pl e p _ => typed p -> elab env (canon p) = Ok p)
                       (fun ps _ => typeds ps -> elab_args env (map canon ps) = Ok ps)); intros; cbn [canon map o_val mk]; try auto.
  - cbn [elab literal]. rewrite <- (app_nil_r (print_int z)), string_to_int_print; [reflexivity| |exact I].
    split; [|lia]. unfold int64_min. lia.
  - cbn [typed] in *. cbn [elab]. unfold named. rewrite H. reflexivity.
  - cbn [typed] in H0. destruct H0 as ((k & Hk) & Hl & Hc). fold typeds in Hl. cbn [elab]. fold (elab_args env). unfold named. rewrite Hk.
    cbn [rbind]. rewrite (H Hl). cbn [rbind]. exact Hc.
  - cbn [elab]. unfold named. rewrite e0. cbn [rbind]. cbn [typed] in H0. rewrite (H H0). reflexivity.
  - cbn [elab]. cbn [typed] in H0. rewrite (H H0). reflexivity.
  - cbn [typed] in H0. destruct H0 as (H1 & H2 & H3). cbn [elab]. unfold named. rewrite H1. cbn [rbind]. rewrite (H H2). exact H3.
  - cbn [typed] in H0. destruct H0 as (H1 & H2). cbn [elab]. rewrite (H H1). cbn [rbind]. apply H2.
    repeat (apply elem_of_cons in e0 as [e0|e0]; [injection e0 as -> ->; tauto|]). inversion e0.
  - cbn [typed] in H0. cbn [elab]. rewrite (H H0). reflexivity.
  - cbn [typed] in H0. cbn [elab]. rewrite (H H0). cbn [rbind]. unfold named. rewrite e0. cbn [rbind]. subst t. reflexivity.
  - cbn [typed] in H2. destruct H2 as (H3 & H4 & H5 & H6). cbn [elab]. rewrite (H H3). cbn [rbind]. rewrite (H0 H4). cbn [rbind].
    rewrite (H1 H5). exact H6.
  - cbn [typed] in H1. destruct H1 as (H3 & H4 & H5). cbn [elab]. rewrite (H H3). cbn [rbind]. rewrite (H0 H4). cbn [rbind].
    destruct (plain_level _ _ _ e) as (_ & _ & ->). exact H5.
  - cbn [typed] in H1. destruct H1 as (H3 & H4 & H5). cbn [elab]. rewrite (H H3). cbn [rbind]. rewrite (H0 H4). cbn [rbind].
    destruct (plain_level _ _ _ e) as (_ & _ & ->). exact H5.
  - cbn [typed] in H1. destruct H1 as (H3 & H4 & H5). cbn [elab]. rewrite (H H3). cbn [rbind]. rewrite (H0 H4). exact H5.
  - cbn [typeds] in H1. destruct H1 as (H3 & H4). cbn [elab_args]. rewrite (H H3). cbn [rbind].
    rewrite (H0 H4). reflexivity.
Qed.
End Typed.

(** ** The symbols of the printed text *)
(** A symbol: the type and text of its token, the one or two lexemes it is written with and the blanks behind it. *)
Record sym := Sym { y_ty : ttype; y_txt : str; y_lex : list lexeme; y_w : str }.
Definition word_sym (ty : ttype) (s w : str) : sym := Sym ty s [Word s] w.
Definition op_sym (ty : ttype) (s w : str) : sym := Sym ty s (map Punct s) w.
Definition comma_sym := op_sym COMMA ($",") ($" ").
Fixpoint syms (p : pexpr) (w : str) : list sym :=
  match p with
  | PLit v => match o_val v with
              | AStr s => [Sym CONST_LITERAL s [Literal (map (pair false) s)] w]
              | AInt z => [word_sym CONST_INTEGER (print_int z) w]
              | _ => []
              end
  | PSym x _ => [word_sym IDENTIFIER x w]
  | PBin op s a b _ | PBool op s a b => syms a ($" ") ++ op_sym op s ($" ") :: syms b w
  | PUn op s _ a => op_sym op s [] :: syms a w
  | PNot s a => op_sym OPERATOR_NOT s [] :: syms a w
  | PTern c a b => syms c ($" ") ++ op_sym QUESTION_MARK ($"?") ($" ") :: syms a ($" ") ++ op_sym COLON ($":") ($" ") :: syms b w
  | PCast t a => op_sym PARENTHESIS_OPEN ($"(") ($" ") :: word_sym IDENTIFIER t ($" ") :: syms a ($" ") ++ [op_sym PARENTHESIS_CLOSE ($")") w]
  | PTypeid a => word_sym KEYWORD ($"typeid") [] :: op_sym PARENTHESIS_OPEN ($"(") ($" ") :: syms a ($" ") ++ [op_sym PARENTHESIS_CLOSE ($")") w]
  | PIs a t => syms a ($" ") ++ [word_sym OPERATOR_IS ($"is") ($" "); word_sym IDENTIFIER t w]
  | PAssign x _ a _ => word_sym IDENTIFIER x ($" ") :: op_sym ASSIGN ($"=") ($" ") :: syms a w
  | PCall f l _ => word_sym IDENTIFIER f [] :: op_sym PARENTHESIS_OPEN ($"(") [] ::
      (fix go l := match l with [] => [] | a :: r => syms a [] ++ match r with [] => [] | _ => comma_sym :: go r end end) l ++
      [op_sym PARENTHESIS_CLOSE ($")") w]
  | _ => []
  end.
Definition arg_syms := fix go l := match l with [] => [] | a :: r => syms a [] ++ match r with [] => [] | _ => comma_sym :: go r end end.
Fixpoint places (ls : list lexeme) (w : str) : list (lexeme * str) :=
  match ls with [] => [] | [l] => [(l, w)] | l :: r => (l, []) :: places r w end.
Definition sitems (ss : list sym) : list (lexeme * str) := concat (map (fun y => places (y_lex y) (y_w y)) ss).

Lemma layout_app a b : layout (a ++ b) = layout a ++ layout b.
Proof. induction a as [|[l w] a IH]; [reflexivity|]. cbn [layout app]. rewrite IH, <- !app_assoc. reflexivity. Qed.
Lemma sitems_app a b : sitems (a ++ b) = sitems a ++ sitems b.
Proof. unfold sitems. rewrite map_app, concat_app. reflexivity. Qed.
Lemma sitems_cons a b : sitems (a :: b) = places (y_lex a) (y_w a) ++ sitems b.
Proof. reflexivity. Qed.
Lemma op_layout s ty w : s <> [] -> layout (places (y_lex (op_sym ty s w)) (y_w (op_sym ty s w))) = s ++ w.
Proof.
  cbn [y_lex y_w op_sym]. induction s as [|c s IH]; intros H; [destruct (H eq_refl)|]. destruct s as [|d s].
  - cbn [map places layout source]. rewrite app_nil_r. reflexivity.
  - cbn [map places layout source] in *. cbn [app]. rewrite IH by discriminate. reflexivity.
Qed.
Lemma word_layout s ty w : layout (places (y_lex (word_sym ty s w)) (y_w (word_sym ty s w))) = s ++ w.
Proof. cbn [y_lex y_w word_sym places layout source]. rewrite app_nil_r. reflexivity. Qed.
Lemma plain_text k op s : (s, op) ∈ plain_ops k -> s <> [].
Proof. intros H ->. destruct k as [|[|[|[|k]]]]; cbn [plain_ops] in H; set_solver. Qed.
Lemma literal_source s : source (Literal (map (pair false) s)) = chr 34 :: s ++ [chr 34].
Proof.
  cbn [source]. f_equal. f_equal. induction s as [|c s IH]; [reflexivity|]. cbn [map concat fst snd app]. rewrite IH. reflexivity.
Qed.
Theorem print_syms env :
  (forall pl e p, bare env pl e p -> forall w, print_pexpr (pe_io env) p ++ w = layout (sitems (syms p w))) /\
  (forall ps, bares env ps -> print_args (map (print_pexpr (pe_io env)) ps) = layout (sitems (arg_syms ps))).
Proof.
  apply (bare_both env (fun pl e p _ => forall w, print_pexpr (pe_io env) p ++ w = layout (sitems (syms p w)))
           (fun ps _ => print_args (map (print_pexpr (pe_io env)) ps) = layout (sitems (arg_syms ps)))); intros;
    cbn [print_pexpr syms o_val mk to_std_string]; try (auto; fail);
    repeat (rewrite ?sitems_app, ?sitems_cons, ?layout_app); rewrite ?word_layout, ?op_layout by (discriminate || (eapply plain_text; eassumption));
    repeat match goal with H : forall w, _ = layout (sitems (syms _ w)) |- _ => rewrite <- H; clear H end; rewrite <- ?app_assoc; cbn [app];
    rewrite ?app_nil_r; try reflexivity.
  - cbn [y_lex y_w places layout]. rewrite literal_source. cbn [app]. rewrite app_nil_r, <- app_assoc. reflexivity.
  - fold arg_syms. rewrite <- H. rewrite <- ?app_assoc. reflexivity.
  - rewrite op_layout; [rewrite app_nil_r; reflexivity|]. intros ->. set_solver.
  - cbn [map print_args arg_syms]. fold arg_syms. destruct ps as [|p' ps].
    + cbn [map]. rewrite app_nil_r, <- (app_nil_r (print_pexpr _ p)). apply H.
    + rewrite sitems_app, sitems_cons, !layout_app. rewrite <- H, app_nil_r. unfold comma_sym. rewrite op_layout by discriminate.
      rewrite <- H0. cbn [map app]. rewrite <- ?app_assoc. reflexivity.
Qed.

(** ** What stands next to each other *)
(** The two tokens a symbol is joined from, and whether the first pass joins them. *)
Definition parts (ty : ttype) : option (ttype * ttype * bool) :=
  match ty with
  | COMPARE_EQUAL => Some (ASSIGN, ASSIGN, true)
  | COMPARE_LESS_EQUAL => Some (COMPARE_LESS, ASSIGN, true)
  | COMPARE_GREATER_EQUAL => Some (COMPARE_GREATER, ASSIGN, true)
  | OPERATOR_SHIFT_LEFT => Some (COMPARE_LESS, COMPARE_LESS, false)
  | OPERATOR_SHIFT_RIGHT => Some (COMPARE_GREATER, COMPARE_GREATER, false)
  | AND => Some (BITAND, BITAND, false)
  | OR => Some (BITOR, BITOR, false)
  | NAND => Some (OPERATOR_NOT, BITAND, false)
  | NOR => Some (OPERATOR_NOT, BITOR, false)
  | _ => None
  end.
Definition last1 (ty : ttype) : ttype := match parts ty with Some (_, b, false) => b | _ => ty end.
Definition first1 (ty : ttype) : ttype := match parts ty with Some (a, _, _) => a | _ => ty end.
Definition first2 (ty : ttype) : ttype := match parts ty with Some (a, _, false) => a | _ => ty end.
Definition unmerged (r : option (category * ttype * str)) : bool := match r with None => true | _ => false end.
Definition quiet (t u : ttype) : bool :=
  unmerged (merge_assign (last1 t) (first1 u)) && unmerged (merge_operator t (first2 u)) &&
  negb (ttype_eqb t CONST_INTEGER && (ttype_eqb u IDENTIFIER || ttype_eqb u OPERATOR_SCOPE)).
Definition loose (t u : ttype) : Prop :=
  t ∈ [MATH_ADDITION; MATH_SUBTRACT; OPERATOR_NOT; PARENTHESIS_OPEN] \/ u ∈ [PARENTHESIS_OPEN; PARENTHESIS_CLOSE; COMMA].
Definition next (y z : sym) : Prop :=
  quiet (y_ty y) (y_ty z) = true /\ (blanks (y_w y) \/ y_w y = [] /\ loose (y_ty y) (y_ty z)).
Fixpoint linked (l : list sym) : Prop :=
  match l with y :: ((z :: _) as r) => next y z /\ linked r | _ => True end.

Definition singles : list (str * ttype) :=
  [($"(", PARENTHESIS_OPEN); ($")", PARENTHESIS_CLOSE); ($",", COMMA); ($"=", ASSIGN); ($"?", QUESTION_MARK);
   ($":", COLON); ($";", SEMICOLON); ($"!", OPERATOR_NOT); ($"*", MATH_MULTIPLY); ($"/", MATH_DIVIDE); ($"%", MATH_MODULO);
   ($"+", MATH_ADDITION); ($"-", MATH_SUBTRACT); ($"&", BITAND); ($"|", BITOR); ($"<", COMPARE_LESS); ($">", COMPARE_GREATER)].
Definition doubles : list (str * ttype) :=
  [($"<<", OPERATOR_SHIFT_LEFT); ($">>", OPERATOR_SHIFT_RIGHT); ($"<=", COMPARE_LESS_EQUAL); ($">=", COMPARE_GREATER_EQUAL);
   ($"==", COMPARE_EQUAL); ($"&&", AND); ($"||", OR); ($"!&", NAND); ($"!|", NOR)].
Definition word_types := [IDENTIFIER; KEYWORD; OPERATOR_IS; CONST_INTEGER].
Inductive sound : sym -> Prop :=
| s_word ty s w : is_word s -> spelled s ty s -> ty ∈ word_types -> sound (word_sym ty s w)
| s_text s w : (forall c, c ∈ s -> c <> chr 34 /\ c <> chr 92 /\ c <> chr 0) ->
    sound (Sym CONST_LITERAL s [Literal (map (pair false) s)] w)
| s_op ty s w : (s, ty) ∈ singles ++ doubles -> sound (op_sym ty s w).

Lemma plain_all k op s : (s, op) ∈ plain_ops k -> (s, op) ∈ singles ++ doubles.
Proof.
  intros H. destruct k as [|[|[|[|k]]]]; cbn [plain_ops] in H; [..|inversion H];
    repeat (apply elem_of_cons in H as [H|H]; [injection H as -> ->; apply elem_of_list_In; cbn; tauto|]); inversion H.
Qed.
Lemma ident_sound x w : ident x -> sound (word_sym IDENTIFIER x w).
Proof. intros [H1 H2]. apply s_word; [exact H1|exact H2|apply ty_in_spec; reflexivity]. Qed.
Definition plainc (c : ascii) : bool := negb (is_delim c) && negb (bool_decide (c = chr 0)).
Lemma known_word s : is_word s \/ ~ (negb (bool_decide (s = [])) && forallb plainc s = true).
Proof.
  destruct (negb (bool_decide (s = [])) && forallb plainc s) eqn:E; [left|by right].
  apply andb_true_iff in E as [E1 E2]. apply is_word_spec. split; [intros ->; done|]. apply Forall_forall. intros c Hc.
  rewrite forallb_forall in E2. apply elem_of_list_In in Hc. apply E2 in Hc. unfold plainc in Hc. apply andb_true_iff in Hc as [H1 H2].
  apply negb_true_iff in H1, H2. by apply bool_decide_eq_false in H2.
Qed.
Lemma digits_word s : s <> [] -> Forall (fun c => is_digit c = true) s -> is_word s.
Proof.
  intros H F. destruct (known_word s) as [K|K]; [exact K|]. exfalso. apply K. apply andb_true_iff. split.
  - apply negb_true_iff, bool_decide_eq_false. exact H.
  - apply forallb_forall. intros c Hc. apply elem_of_list_In in Hc. pose proof (proj1 (Forall_forall _ _) F c Hc) as D. cbv beta in D.
    pose proof (char_forall (fun c => if is_digit c then plainc c else true)
                  ltac:(vm_compute; reflexivity) c) as G. cbv beta in G. rewrite D in G. exact G.
Qed.
Lemma arg_syms_cons p q ps : arg_syms (p :: q :: ps) = syms p [] ++ comma_sym :: arg_syms (q :: ps).
Proof. reflexivity. Qed.
Theorem syms_sound env :
  (forall pl e p, bare env pl e p -> forall w, Forall sound (syms p w)) /\ (forall ps, bares env ps -> Forall sound (arg_syms ps)).
Proof.
  assert (O : forall w s ty, (s, ty) ∈ singles ++ doubles -> sound (op_sym ty s w)) by (intros; apply s_op; assumption).
  assert (T : forall w, sound (word_sym KEYWORD ($"typeid") w)).
  { intros w. apply s_word; [destruct (known_word ($"typeid")) as [K|K]; [exact K|destruct K; reflexivity]| |apply ty_in_spec; reflexivity].
    apply sp_keyword. apply elem_of_list_In. cbn. tauto. }
  assert (I : forall w, sound (word_sym OPERATOR_IS ($"is") w)).
  { intros w. apply s_word; [destruct (known_word ($"is")) as [K|K]; [exact K|destruct K; reflexivity]| |apply ty_in_spec; reflexivity].
    apply sp_is. }
  apply (bare_both env (fun pl e p _ => forall w, Forall sound (syms p w)) (fun ps _ => Forall sound (arg_syms ps))); intros;
    cbn [syms o_val mk]; auto;
    repeat first [apply Forall_app; split|apply Forall_cons; split|apply Forall_nil_2]; auto using ident_sound;
    try (apply O; apply elem_of_list_In; cbn; tauto); try (apply O; eapply plain_all; eassumption).
  - assert (H1 : print_int z <> []).
    { destruct z; cbn [print_int]; try lia; apply digits_ok. }
    assert (H2 : Forall (fun c => is_digit c = true) (print_int z)).
    { apply Forall_forall. intros c. apply print_int_nonneg_chars. lia. }
    apply s_word; [| |apply ty_in_spec; reflexivity].
    + apply digits_word; assumption.
    + apply sp_integer; assumption.
  - apply s_text. assumption.
  - apply O. repeat (apply elem_of_cons in e0 as [e0|e0]; [injection e0 as -> ->; apply elem_of_list_In; cbn; tauto|]). inversion e0.
  - destruct ps as [|q ps]; [constructor|]. apply Forall_cons. split; [|exact H0]. apply O. apply elem_of_list_In. cbn. tauto.
Qed.

Definition enders := [IDENTIFIER; PARENTHESIS_CLOSE; CONST_INTEGER; CONST_LITERAL].
Definition terms := [IDENTIFIER; KEYWORD; PARENTHESIS_OPEN; CONST_INTEGER; CONST_LITERAL].
Definition starters := MATH_ADDITION :: MATH_SUBTRACT :: OPERATOR_NOT :: terms.
Definition infix_types := map snd (plain_ops 0 ++ plain_ops 1 ++ plain_ops 2 ++ plain_ops 3).
Definition followers := SEMICOLON :: COMMA :: PARENTHESIS_CLOSE :: QUESTION_MARK :: COLON :: OPERATOR_IS :: infix_types.
Definition follows (w : str) (rest : list sym) : Prop :=
  exists r0 r, rest = r0 :: r /\ y_ty r0 ∈ followers /\ (blanks w \/ w = [] /\ y_ty r0 ∈ [PARENTHESIS_CLOSE; COMMA]).
Lemma blank_one : blanks ($" ").
Proof.
  split; [discriminate|]. intros c Hc. apply elem_of_cons in Hc as [->|Hc]; [right; right; right; reflexivity|inversion Hc].
Qed.
Lemma quiet_all l r : forallb (fun t => forallb (quiet t) r) l = true -> forall t u, t ∈ l -> u ∈ r -> quiet t u = true.
Proof.
  intros H t u Ht Hu. rewrite forallb_forall in H. apply elem_of_list_In in Ht, Hu. apply H in Ht. rewrite forallb_forall in Ht. auto.
Qed.
Lemma plain_infix k op s : (s, op) ∈ plain_ops k -> op ∈ infix_types.
Proof.
  intros H. unfold infix_types. apply elem_of_list_fmap. exists (s, op). split; [reflexivity|].
  destruct k as [|[|[|[|k]]]]; [rewrite !elem_of_app; tauto..|inversion H].
Qed.
Lemma infix_follows op : op ∈ infix_types -> op ∈ followers.
Proof. intros H. unfold followers. do 6 right. exact H. Qed.
Lemma front_starts env pl e p : bare env pl e p -> front p ∈ starters /\ (pl = Term -> front p ∈ terms).
Proof.
  intros H. induction H; cbn [front o_val mk]; try (split; [apply ty_in_spec; reflexivity|intros; (apply ty_in_spec; reflexivity) || discriminate]);
    try (destruct IHbare as [? _]; split; [assumption|discriminate]);
    try (destruct IHbare1 as [? _]; split; [assumption|discriminate]).
  split; [|discriminate]. repeat (apply elem_of_cons in H as [H|H]; [injection H as -> ->; apply ty_in_spec; reflexivity|]). inversion H.
Qed.
Lemma front_head env pl e p w : bare env pl e p -> exists y ys, syms p w = y :: ys /\ y_ty y = front p.
Proof.
  intros H. revert w. induction H; intros w; cbn [syms front o_val mk]; try (eexists _, _; split; reflexivity); auto;
    try (destruct (IHbare ($" ")) as (y & ys & -> & <-); eexists _, _; split; reflexivity);
    (destruct (IHbare1 ($" ")) as (y & ys & -> & <-); eexists _, _; split; reflexivity).
Qed.
Lemma linked_cons y z r : next y z -> linked (z :: r) -> linked (y :: z :: r).
Proof. intros H1 H2. exact (conj H1 H2). Qed.
(** In front of an operand. *)
Lemma link_front env pl e p w y rest : bare env pl e p -> linked (syms p w ++ rest) ->
  quiet (y_ty y) (front p) = true -> blanks (y_w y) \/ y_w y = [] /\ loose (y_ty y) (front p) -> linked (y :: syms p w ++ rest).
Proof.
  intros B L Q W. destruct (front_head _ _ _ _ w B) as (z & zs & E & F). rewrite E in *. cbn [app] in *. apply linked_cons; [|exact L].
  split; rewrite F; assumption.
Qed.
(** Behind an operand. *)
Lemma link_last y w rest : y_ty y ∈ enders -> y_w y = w -> follows w rest -> linked rest -> linked (y :: rest).
Proof.
  intros Hy Hw (r0 & r & -> & Hr & Hb) L. apply linked_cons; [|exact L]. split.
  - eapply (quiet_all enders followers); [vm_compute; reflexivity|exact Hy|exact Hr].
  - rewrite Hw. destruct Hb as [?|[? H]]; [left; assumption|]. right. split; [assumption|]. right.
    apply elem_of_cons in H as [->|H]; [apply ty_in_spec; reflexivity|]. apply elem_of_cons in H as [->|H]; [apply ty_in_spec; reflexivity|]. inversion H.
Qed.
Lemma follows_blank y r : y_ty y ∈ followers -> follows ($" ") (y :: r).
Proof. intros H. exists y, r. split; [reflexivity|]. split; [exact H|]. left. exact blank_one. Qed.
Lemma quiet_infix op q : op ∈ infix_types -> q ∈ starters -> q <> op -> quiet op q = true.
Proof.
  intros Ho Hq N. assert (F : forallb (fun t => forallb (fun u => quiet t u || ttype_eqb u t) starters) infix_types = true) by (vm_compute; reflexivity).
  rewrite forallb_forall in F. apply elem_of_list_In in Ho, Hq. apply F in Ho. rewrite forallb_forall in Ho. apply Ho in Hq.
  apply orb_true_iff in Hq as [?|Hq]; [assumption|]. apply ttype_eqb_spec in Hq. contradiction.
Qed.
Lemma plain_not_start k op s : (s, op) ∈ plain_ops k -> k <> 1%nat -> op ∉ starters.
Proof.
  intros H K. destruct k as [|[|[|[|k]]]]; cbn [plain_ops] in H; [|destruct (K eq_refl)|..|inversion H];
    repeat (apply elem_of_cons in H as [H|H]; [injection H as -> ->; apply ty_in_false; reflexivity|]); inversion H.
Qed.
Ltac fr B := destruct (front_starts _ _ _ _ B) as [? ?].
Ltac qa := eapply quiet_all; [|apply elem_of_list_singleton; reflexivity|eassumption]; vm_compute; reflexivity.
Theorem syms_linked env :
  (forall pl e p, bare env pl e p -> forall w rest, linked rest -> follows w rest -> linked (syms p w ++ rest)) /\
  (forall ps, bares env ps -> forall y rest, linked rest -> follows [] rest ->
     y_ty y = PARENTHESIS_OPEN \/ (y_ty y = COMMA /\ ps <> []) -> (y_w y = [] /\ y_ty y = PARENTHESIS_OPEN \/ blanks (y_w y)) ->
     (exists z r, rest = z :: r /\ y_ty z = PARENTHESIS_CLOSE) ->
     linked (y :: arg_syms ps ++ rest)).
Proof.
  apply (bare_both env (fun pl e p _ => forall w rest, linked rest -> follows w rest -> linked (syms p w ++ rest))
    (fun ps _ => forall y rest, linked rest -> follows [] rest ->
       y_ty y = PARENTHESIS_OPEN \/ (y_ty y = COMMA /\ ps <> []) -> (y_w y = [] /\ y_ty y = PARENTHESIS_OPEN \/ blanks (y_w y)) ->
       (exists z r, rest = z :: r /\ y_ty z = PARENTHESIS_CLOSE) ->
       linked (y :: arg_syms ps ++ rest))); intros; cbn [syms o_val mk]; auto; cbn [app].
  - eapply link_last; [|reflexivity|eassumption..]. apply ty_in_spec; reflexivity.
  - eapply link_last; [|reflexivity|eassumption..]. apply ty_in_spec; reflexivity.
  - eapply link_last; [|reflexivity|eassumption..]. apply ty_in_spec; reflexivity.
  - (* call *) apply linked_cons; [split; [reflexivity|right; split; [reflexivity|right; apply ty_in_spec; reflexivity]]|].
    fold arg_syms. rewrite <- app_assoc. cbn [app]. apply H.
    + eapply link_last; [|reflexivity|eassumption..]. apply ty_in_spec; reflexivity.
    + eexists _, _. split; [reflexivity|]. split; [apply ty_in_spec; reflexivity|]. right. split; [reflexivity|]. apply ty_in_spec; reflexivity.
    + left. reflexivity.
    + left. split; reflexivity.
    + eexists _, _. split; reflexivity.
  - (* cast *) fr b. rewrite <- app_assoc. cbn [app]. apply linked_cons; [split; [reflexivity|left; exact blank_one]|].
    eapply link_front; [eassumption| |qa|left; exact blank_one]. apply H; [|apply follows_blank, ty_in_spec; reflexivity].
    eapply link_last; [|reflexivity|eassumption..]. apply ty_in_spec; reflexivity.
  - (* typeid *) fr b. rewrite <- app_assoc. cbn [app].
    apply linked_cons; [split; [reflexivity|right; split; [reflexivity|right; apply ty_in_spec; reflexivity]]|].
    eapply link_front; [eassumption| |qa|left; exact blank_one]. apply H; [|apply follows_blank, ty_in_spec; reflexivity].
    eapply link_last; [|reflexivity|eassumption..]. apply ty_in_spec; reflexivity.
  - (* assign *) fr b. apply linked_cons; [split; [reflexivity|left; exact blank_one]|].
    eapply link_front; [eassumption| |qa|left; exact blank_one]. auto.
  - (* sign *) fr b. assert (E : y_ty (op_sym op s []) ∈ [MATH_ADDITION; MATH_SUBTRACT]).
    { cbn [y_ty op_sym]. repeat (apply elem_of_cons in e0 as [e0|e0]; [injection e0 as -> ->; apply ty_in_spec; reflexivity|]). inversion e0. }
    eapply link_front; [eassumption|auto| |].
    + eapply (quiet_all [MATH_ADDITION; MATH_SUBTRACT] terms); [vm_compute; reflexivity|exact E|auto].
    + right. split; [reflexivity|]. left. apply elem_of_cons in E as [->|E]; [apply ty_in_spec; reflexivity|].
      apply elem_of_cons in E as [->|E]; [apply ty_in_spec; reflexivity|]. inversion E.
  - (* not *) fr b. eapply link_front; [eassumption|auto| |right; split; [reflexivity|left; apply ty_in_spec; reflexivity]].
    eapply (quiet_all [OPERATOR_NOT] terms); [vm_compute; reflexivity|apply elem_of_list_singleton; reflexivity|auto].
  - (* is *) rewrite <- app_assoc. cbn [app]. apply H; [|apply follows_blank, ty_in_spec; reflexivity].
    apply linked_cons; [split; [reflexivity|left; exact blank_one]|]. eapply link_last; [|reflexivity|eassumption..]. apply ty_in_spec; reflexivity.
  - (* ternary *) fr b0. fr b1. rewrite <- app_assoc. cbn [app]. apply H; [|apply follows_blank, ty_in_spec; reflexivity].
    rewrite <- app_assoc. cbn [app]. eapply link_front; [eassumption| |qa|left; exact blank_one].
    apply H0; [|apply follows_blank, ty_in_spec; reflexivity]. eapply link_front; [eassumption|auto|qa|left; exact blank_one].
  - (* mul *) fr b0. rewrite <- app_assoc. cbn [app]. pose proof (plain_infix _ _ _ e) as I. apply H; [|apply follows_blank, infix_follows; exact I].
    eapply link_front; [eassumption|auto| |left; exact blank_one]. apply quiet_infix; [exact I|assumption|].
    intros E. apply (plain_not_start _ _ _ e); [discriminate|]. cbn [y_ty op_sym] in E. rewrite <- E. assumption.
  - (* add *) fr b0. rewrite <- app_assoc. cbn [app]. pose proof (plain_infix _ _ _ e) as I. apply H; [|apply follows_blank, infix_follows; exact I].
    eapply link_front; [eassumption|auto| |left; exact blank_one]. apply quiet_infix; assumption.
  - (* compare, logic *) fr b0. rewrite <- app_assoc. cbn [app]. pose proof (plain_infix _ _ _ e) as I. apply H; [|apply follows_blank, infix_follows; exact I].
    eapply link_front; [eassumption|auto| |left; exact blank_one]. apply quiet_infix; [exact I|assumption|].
    intros E. apply (plain_not_start _ _ _ e); [lia|]. cbn [y_ty op_sym] in E. rewrite <- E. assumption.
  - (* no argument *) cbn [arg_syms app]. destruct H3 as (z & r & -> & Hz). apply linked_cons; [|assumption].
    destruct H1 as [Hy|[_ C]]; [|destruct (C eq_refl)]. split; [rewrite Hy, Hz; reflexivity|].
    destruct H2 as [[? ?]|?]; [right|left; assumption]. split; [assumption|]. left. rewrite Hy. apply ty_in_spec; reflexivity.
  - (* arguments *) fr b. assert (Q : quiet (y_ty y) (front p) = true).
    { destruct H3 as [->|[-> _]]; qa. }
    assert (W : blanks (y_w y) \/ y_w y = [] /\ loose (y_ty y) (front p)).
    { destruct H4 as [[? Hy]|?]; [right|left; assumption]. split; [assumption|]. left. rewrite Hy. apply ty_in_spec; reflexivity. }
    destruct ps as [|q ps].
    + cbn [arg_syms]. rewrite app_nil_r. eapply link_front; [eassumption|auto|assumption|assumption].
    + rewrite arg_syms_cons, <- app_assoc. eapply link_front; [eassumption| |assumption|assumption]. cbn [app]. apply H.
      * apply H0; try assumption; [right; split; [reflexivity|discriminate]|right; exact blank_one].
      * eexists _, _. split; [reflexivity|]. split; [apply ty_in_spec; reflexivity|]. right. split; [reflexivity|]. apply ty_in_spec; reflexivity.
Qed.

(** ** The tokens of the symbols *)
Lemma doubles_two s ty : (s, ty) ∈ doubles -> exists c d a b f, s = [c; d] /\ parts ty = Some (a, b, f) /\
  spelled [c] a [c] /\ spelled [d] b [d] /\ c <> chr 47 /\ c ∈ ($".,;:=()[]{}!?<>+-*/%&|~'") /\ d ∈ ($".,;:=()[]{}!?<>+-*/%&|~'").
Proof.
  intros H. repeat (apply elem_of_cons in H as [H|H]; [injection H as -> ->; eexists _, _, _, _, _; split; [reflexivity|];
    split; [reflexivity|]; split; [apply sp_punct; apply elem_of_list_In; cbn; tauto|];
    split; [apply sp_punct; apply elem_of_list_In; cbn; tauto|]; split; [discriminate|]; split; apply elem_of_list_In; cbn; tauto|]).
  inversion H.
Qed.
Lemma singles_one s ty : (s, ty) ∈ singles -> exists c, s = [c] /\ spelled [c] ty [c] /\ parts ty = None /\
  c ∈ ($".,;:=()[]{}!?<>+-*/%&|~'") /\
  (ty ∈ [MATH_ADDITION; MATH_SUBTRACT; OPERATOR_NOT; PARENTHESIS_OPEN; PARENTHESIS_CLOSE; COMMA] -> c <> chr 47 /\ c <> chr 42).
Proof.
  intros H. repeat (apply elem_of_cons in H as [H|H]; [injection H as -> ->; eexists; split; [reflexivity|];
    split; [apply sp_punct; apply elem_of_list_In; cbn; tauto|]; split; [reflexivity|]; split; [apply elem_of_list_In; cbn; tauto|];
    intros D; apply ty_in_spec in D; (discriminate D || (split; discriminate))|]).
  inversion H.
Qed.
Lemma loose_touch y z l l' : sound y -> sound z -> loose (y_ty y) (y_ty z) ->
  last (y_lex y) = Some l -> head (y_lex z) = Some l' -> may_touch l l'.
Proof.
  intros Sy Sz L El Ez. destruct L as [L|L].
  - inversion Sy as [ty s w Hw Hs Ht|s w Hs|ty s w Hs]; subst; cbn [y_ty word_sym op_sym y_lex] in *.
    + repeat (apply elem_of_cons in Ht as [->|Ht]; [apply ty_in_spec in L; discriminate L|]). inversion Ht.
    + apply ty_in_spec in L. discriminate L.
    + apply elem_of_app in Hs as [Hs|Hs].
      * destruct (singles_one _ _ Hs) as (c & -> & _ & _ & _ & Hc). cbn in El. injection El as <-.
        assert (N : c <> chr 47) by (apply Hc; repeat (apply elem_of_cons in L as [->|L]; [apply ty_in_spec; reflexivity|]); inversion L).
        destruct l'; cbn [may_touch]; try exact I. intros [? _]; auto.
      * exfalso. repeat (apply elem_of_cons in Hs as [Hs|Hs]; [injection Hs as -> ->; apply ty_in_spec in L; discriminate L|]). inversion Hs.
  - inversion Sz as [ty s w Hw Hs Ht|s w Hs|ty s w Hs]; subst; cbn [y_ty word_sym op_sym y_lex] in *.
    + repeat (apply elem_of_cons in Ht as [->|Ht]; [apply ty_in_spec in L; discriminate L|]). inversion Ht.
    + apply ty_in_spec in L. discriminate L.
    + apply elem_of_app in Hs as [Hs|Hs].
      * destruct (singles_one _ _ Hs) as (c & -> & _ & _ & _ & Hc). cbn in Ez. injection Ez as <-.
        assert (N : c <> chr 47 /\ c <> chr 42) by (apply Hc; repeat (apply elem_of_cons in L as [->|L]; [apply ty_in_spec; reflexivity|]); inversion L).
        destruct l; cbn [may_touch]; try exact I. intros [_ [?|?]]; tauto.
      * exfalso. repeat (apply elem_of_cons in Hs as [Hs|Hs]; [injection Hs as -> ->; apply ty_in_spec in L; discriminate L|]). inversion Hs.
Qed.
Lemma sitems_head z r : sound z -> exists l w k, sitems (z :: r) = (l, w) :: k /\ head (y_lex z) = Some l.
Proof.
  intros Sz. rewrite sitems_cons. inversion Sz as [ty s w Hw Hs Ht|s w Hs|ty s w Hs]; subst; cbn [y_lex word_sym op_sym places y_w].
  1,2: eexists _, _, _; split; reflexivity.
  apply elem_of_app in Hs as [Hs|Hs].
  - destruct (singles_one _ _ Hs) as (c & -> & _). eexists _, _, _; split; reflexivity.
  - destruct (doubles_two _ _ Hs) as (c & d & a & b & f & -> & _). eexists _, _, _; split; reflexivity.
Qed.
Theorem linked_tight ss : Forall sound ss -> linked ss -> (forall y, last ss = Some y -> blanks (y_w y)) -> tight (sitems ss).
Proof.
  induction ss as [|y ss IH]; intros F L E; [exact I|]. inversion F as [|? ? Sy Fs]; subst.
  assert (T : tight (sitems ss)).
  { apply IH; [assumption| |].
    - destruct ss; [exact I|]. apply L.
    - intros z Hz. apply E. destruct ss; [discriminate Hz|]. exact Hz. }
  assert (G : forall l, last (y_lex y) = Some l -> blanks (y_w y) \/
            y_w y = [] /\ match sitems ss with [] => may_end l | (l', _) :: _ => may_touch l l' end).
  { intros l Hl. destruct ss as [|z ss]; [left; apply E; reflexivity|]. destruct L as [[_ [?|[Hw Hq]]] _]; [left; assumption|].
    right. split; [exact Hw|]. inversion Fs as [|? ? Sz _]; subst. destruct (sitems_head z ss Sz) as (l' & w & k & -> & Hh).
    exact (loose_touch y z l l' Sy Sz Hq Hl Hh). }
  rewrite sitems_cons. inversion Sy as [ty s w Hw Hs Ht|s w Hs|ty s w Hs]; subst; cbn [y_lex word_sym op_sym y_w places app tight] in *.
  - split; [exact Hw|]. split; [|exact T]. apply (G (Word s)). reflexivity.
  - split; [|split; [|exact T]; apply (G (Literal (map (pair false) s))); reflexivity].
    cbn [lex_ok]. intros e c Hc _. apply elem_of_list_fmap in Hc as (c' & E' & Hc). injection E' as -> ->. auto.
  - apply elem_of_app in Hs as [Hs|Hs].
    + destruct (singles_one _ _ Hs) as (c & -> & _ & _ & Hc & _). cbn [map places app tight]. split; [exact Hc|]. split; [|exact T].
      apply (G (Punct c)). reflexivity.
    + destruct (doubles_two _ _ Hs) as (c & d & a & b & f & -> & _ & _ & _ & Nc & Hc & Hd). cbn [map places app tight].
      split; [exact Hc|]. split; [right; split; [reflexivity|cbn [may_touch]; intros [? _]; auto]|].
      split; [exact Hd|]. split; [|exact T]. apply (G (Punct d)). reflexivity.
Qed.

(** The passes that join tokens. *)
Inductive joins (f : ttype -> ttype -> option (category * ttype * str)) : option ttype -> list token -> list token -> Prop :=
| j_nil o : joins f o [] []
| j_keep o t r q : (forall x, o = Some x -> f x (k_type t) = None) -> joins f (Some (k_type t)) r q -> joins f o (t :: r) (t :: q)
| j_join o a b c ty s r q : (forall x, o = Some x -> f x (k_type a) = None) -> f (k_type a) (k_type b) = Some (c, ty, s) ->
    joins f (Some ty) r q -> joins f o (a :: b :: r) (Token c ty s (k_line b) (k_col b) false :: q).
Lemma joins_pass f o r q : joins f o r q -> forall acc, o = option_map k_type (head acc) -> merge_pass f acc r = reverse acc ++ q.
Proof.
  intros J. induction J as [o|o t r q Ho J IH|o a b c ty s r q Ho Hf J IH]; intros acc Ha.
  - cbn [merge_pass]. rewrite app_nil_r. reflexivity.
  - assert (S1 : merge_pass f acc (t :: r) = merge_pass f (t :: acc) r).
    { cbn [merge_pass]. destruct acc as [|x acc]; [reflexivity|]. rewrite Ho by (rewrite Ha; reflexivity). reflexivity. }
    rewrite S1, (IH (t :: acc)) by reflexivity. rewrite reverse_cons, <- app_assoc. reflexivity.
  - assert (S1 : merge_pass f acc (a :: b :: r) = merge_pass f (Token c ty s (k_line b) (k_col b) false :: acc) r).
    { cbn [merge_pass]. destruct acc as [|x acc]; [rewrite Hf; reflexivity|]. rewrite Ho by (rewrite Ha; reflexivity).
      rewrite Hf. reflexivity. }
    rewrite S1, (IH (_ :: acc)) by reflexivity. rewrite reverse_cons, <- app_assoc. reflexivity.
Qed.
Definition same (y : sym) (t : token) : Prop := k_type t = y_ty y /\ k_text t = y_txt y.
Definition lexed_as (lw : lexeme * str) (t : token) : Prop := lexed (fst lw) (k_type t) (k_text t).
Lemma parts_join s ty a b f : (s, ty) ∈ doubles -> parts ty = Some (a, b, f) ->
  (if f then exists c, merge_assign a b = Some (c, ty, s) else merge_assign a b = None /\ exists c, merge_operator a b = Some (c, ty, s)).
Proof.
  intros H E. repeat (apply elem_of_cons in H as [H|H]; [injection H as -> ->; injection E as <- <- <-; cbn; eauto|]). inversion H.
Qed.
Lemma unmerged_none r : unmerged r = true -> r = None.
Proof. destruct r; [discriminate|reflexivity]. Qed.
Lemma quiet_split t u : quiet t u = true -> merge_assign (last1 t) (first1 u) = None /\ merge_operator t (first2 u) = None.
Proof. unfold quiet. rewrite !andb_true_iff. intros [[H1 H2] _]. split; apply unmerged_none; assumption. Qed.
Lemma single_sym y l : sound y -> y_lex y = [l] -> parts (y_ty y) = None /\ forall t, lexed l (k_type t) (k_text t) -> same y t.
Proof.
  intros Sy E. inversion Sy as [ty s w Hw Hs Ht|s w Hs|ty s w Hs]; subst; cbn [y_lex word_sym op_sym y_ty] in *.
  - injection E as <-. split.
    + repeat (apply elem_of_cons in Ht as [->|Ht]; [reflexivity|]). inversion Ht.
    + intros t Hl. exact (C14_spelling_unique _ _ _ _ _ Hl Hs).
  - injection E as <-. split; [reflexivity|]. intros t [H1 H2]. split; [exact H1|]. rewrite H2. cbn [y_txt]. clear.
    induction s as [|c s IH]; [reflexivity|]. cbn [map snd]. rewrite IH. reflexivity.
  - apply elem_of_app in Hs as [Hs|Hs].
    + destruct (singles_one _ _ Hs) as (c & -> & Hc & Hp & _). injection E as <-. split; [exact Hp|].
      intros t Hl. exact (C14_spelling_unique _ _ _ _ _ Hl Hc).
    + destruct (doubles_two _ _ Hs) as (c & d & a & b & f & -> & _). discriminate E.
Qed.
Definition after (prev : option ttype) (g : ttype -> ttype) : option ttype := option_map g prev.
Theorem join_syms ss : Forall sound ss -> linked ss -> forall prev raws,
  Forall2 lexed_as (sitems ss) raws ->
  (forall t y r, prev = Some t -> ss = y :: r -> quiet t (y_ty y) = true) ->
  exists mid fin, joins merge_assign (option_map last1 prev) raws mid /\ joins merge_operator prev mid fin /\ Forall2 same ss fin.
Proof.
  induction ss as [|y ss IH]; intros F L prev raws R Q.
  - inversion R; subst. exists [], []. split; [constructor|]. split; constructor.
  - inversion F as [|? ? Sy Fs]; subst. rewrite sitems_cons in R. apply Forall2_app_inv_l in R as (r1 & r2 & R1 & R2 & ->).
    assert (Ls : linked ss) by (destruct ss; [exact I|apply L]).
    destruct (IH Fs Ls (Some (y_ty y)) r2 R2) as (mid & fin & J1 & J2 & J3).
    { intros t z r E Ez. injection E as <-. subst ss. exact (proj1 (proj1 L)). }
    assert (Qy : forall t, prev = Some t -> merge_assign (last1 t) (first1 (y_ty y)) = None /\ merge_operator t (first2 (y_ty y)) = None).
    { intros t Et. apply quiet_split. eapply Q; eauto. }
    assert (One : forall l w, places (y_lex y) (y_w y) = [(l, w)] -> y_lex y = [l]).
    { intros l w Hp. destruct (y_lex y) as [|l1 [|l2 [|l3 ls]]]; try discriminate Hp. injection Hp as -> _. reflexivity. }
    assert (Single : forall l t, y_lex y = [l] -> lexed l (k_type t) (k_text t) -> r1 = [t] ->
       exists mid fin, joins merge_assign (option_map last1 prev) (r1 ++ r2) mid /\ joins merge_operator prev mid fin /\ Forall2 same (y :: ss) fin).
    { intros l t El Ht ->. destruct (single_sym y l Sy El) as [P U]. specialize (U t Ht). destruct U as [U1 U2].
      exists (t :: mid), (t :: fin). cbn [app]. unfold first1, first2 in Qy. rewrite P in Qy. split; [|split].
      - apply j_keep; [|rewrite U1; cbn [option_map] in J1; unfold last1 in J1 at 1; rewrite P in J1; exact J1].
        intros x Hx. destruct prev as [t0|]; [|discriminate Hx]. injection Hx as <-. rewrite U1. apply (Qy t0). reflexivity.
      - apply j_keep; [|rewrite U1; exact J2]. intros x ->. rewrite U1. apply (Qy x). reflexivity.
      - constructor; [split; assumption|exact J3]. }
    inversion Sy as [ty s w Hw Hs Ht|s w Hs|ty s w Hs]; subst; cbn [y_lex word_sym op_sym places y_w] in R1.
    + inversion R1 as [|? t ? ? Ht1 Hn]; subst. inversion Hn; subst. eapply Single; [reflexivity|exact Ht1|reflexivity].
    + inversion R1 as [|? t ? ? Ht1 Hn]; subst. inversion Hn; subst. eapply Single; [reflexivity|exact Ht1|reflexivity].
    + apply elem_of_app in Hs as [Hs|Hs].
      * destruct (singles_one _ _ Hs) as (c & -> & _). cbn [map places] in R1.
        inversion R1 as [|? t ? ? Ht1 Hn]; subst. inversion Hn; subst. eapply Single; [reflexivity|exact Ht1|reflexivity].
      * clear Single One. destruct (doubles_two _ _ Hs) as (c & d & a & b & f & -> & P & Sc & Sd & _). cbn [map places] in R1.
        inversion R1 as [|? t1 ? ? H1 Hn]; subst. inversion Hn as [|? t2 ? ? H2 Hn2]; subst. inversion Hn2; subst. clear R1 Hn Hn2.
        cbn [y_ty op_sym] in *.
        destruct (C14_spelling_unique _ _ _ _ _ H1 Sc) as [T1 _]. destruct (C14_spelling_unique _ _ _ _ _ H2 Sd) as [T2 _].
        pose proof (parts_join _ _ _ _ _ Hs P) as PJ. unfold first1, first2 in Qy. rewrite P in Qy.
        destruct f; cbn [app].
        -- destruct PJ as (ca & PJ). exists (Token ca ty [c; d] (k_line t2) (k_col t2) false :: mid),
             (Token ca ty [c; d] (k_line t2) (k_col t2) false :: fin). split; [|split].
           ++ apply j_join; [|rewrite T1, T2; exact PJ|cbn [option_map] in J1; unfold last1 in J1 at 1; rewrite P in J1; exact J1].
              intros x Hx. destruct prev as [t0|]; [|discriminate Hx]. injection Hx as <-. rewrite T1. apply (Qy t0). reflexivity.
           ++ apply j_keep; [|exact J2]. intros x ->. cbn [k_type]. apply (Qy x). reflexivity.
           ++ constructor; [split; reflexivity|exact J3].
        -- destruct PJ as (PN & ca & PJ). exists (t1 :: t2 :: mid), (Token ca ty [c; d] (k_line t2) (k_col t2) false :: fin). split; [|split].
           ++ apply j_keep; [|apply j_keep].
              ** intros x Hx. destruct prev as [t0|]; [|discriminate Hx]. injection Hx as <-. rewrite T1. apply (Qy t0). reflexivity.
              ** intros x Hx. injection Hx as <-. rewrite T1, T2. exact PN.
              ** rewrite T2. cbn [option_map] in J1; unfold last1 in J1 at 1; rewrite P in J1. exact J1.
           ++ apply j_join; [|rewrite T1, T2; exact PJ|exact J2]. intros x ->. rewrite T1. apply (Qy x). reflexivity.
           ++ constructor; [split; reflexivity|exact J3].
Qed.

(** The symbols of a tree are a text of the grammar. *)
Lemma sign_types op s : (s, op) ∈ [($"+", MATH_ADDITION); ($"-", MATH_SUBTRACT)] -> op = MATH_ADDITION \/ op = MATH_SUBTRACT.
Proof. intros H. repeat (apply elem_of_cons in H as [H|H]; [injection H as -> ->; tauto|]). inversion H. Qed.
Ltac f2 H t ts Ht := apply Forall2_cons_inv_l in H as (t & ts & Ht & H & ->).
Theorem syms_denote env :
  (forall pl e p, bare env pl e p -> forall w ts, Forall2 same (syms p w) ts -> denotes true pl e ts (canon p)) /\
  (forall ps, bares env ps -> forall ts, Forall2 same (arg_syms ps) ts -> denotes_args true ts (map canon ps)).
Proof.
  apply (bare_both env (fun pl e p _ => forall w ts, Forall2 same (syms p w) ts -> denotes true pl e ts (canon p))
    (fun ps _ => forall ts, Forall2 same (arg_syms ps) ts -> denotes_args true ts (map canon ps))); intros;
    cbn [syms canon o_val mk map] in *.
  - apply Forall2_cons_inv_l in H as (t & r & [Ht Hs] & H & ->). inversion H; subst. cbn [y_ty y_txt word_sym] in *.
    rewrite <- Hs, <- Ht. apply d_lit. rewrite Ht. apply ty_in_spec. reflexivity.
  - apply Forall2_cons_inv_l in H as (t & r & [Ht Hs] & H & ->). inversion H; subst. cbn [y_ty y_txt word_sym] in *.
    rewrite <- Hs, <- Ht. apply d_lit. rewrite Ht. apply ty_in_spec. reflexivity.
  - apply Forall2_cons_inv_l in H as (t & r & [Ht Hs] & H & ->). inversion H; subst. cbn [y_ty y_txt word_sym] in *.
    rewrite <- Hs. apply d_name. exact Ht.
  - fold arg_syms in H0. apply Forall2_cons_inv_l in H0 as (u & r & [Hu Hs] & H0 & ->). apply Forall2_cons_inv_l in H0 as (o & r1 & [Ho _] & H0 & ->).
    apply Forall2_app_inv_l in H0 as (r2 & r3 & H1 & H0 & ->). apply Forall2_cons_inv_l in H0 as (c & r4 & [Hc _] & H0 & ->). inversion H0; subst.
    cbn [y_ty y_txt word_sym op_sym] in *. rewrite <- Hs. apply d_call; auto. discriminate.
  - apply Forall2_cons_inv_l in H0 as (o & r1 & [Ho _] & H0 & ->). apply Forall2_cons_inv_l in H0 as (u & r & [Hu Hs] & H0 & ->).
    apply Forall2_app_inv_l in H0 as (r2 & r3 & H1 & H0 & ->). apply Forall2_cons_inv_l in H0 as (c & r4 & [Hc _] & H0 & ->). inversion H0; subst.
    cbn [y_ty y_txt word_sym op_sym] in *. rewrite <- Hs. change (o :: u :: r2 ++ [c]) with (o :: (u :: r2) ++ [c]).
    destruct (front_head _ _ _ _ ($" ") b) as (y & ys & Ey & Fy). rewrite Ey in H1.
    apply Forall2_cons_inv_l in H1 as (v & r5 & [Hv Hvs] & H1 & ->).
    apply (d_paren true o (u :: v :: r5) c Open); [exact Ho|exact Hc|]. apply lift_level, term_infix.
    eapply d_cast; [exact Hu|rewrite Hv, Fy; assumption|]. apply (H ($" ")). rewrite Ey. constructor; [split; assumption|exact H1].
  - apply Forall2_cons_inv_l in H0 as (u & r & [Hu Hs] & H0 & ->). apply Forall2_cons_inv_l in H0 as (o & r1 & [Ho _] & H0 & ->).
    apply Forall2_app_inv_l in H0 as (r2 & r3 & H1 & H0 & ->). apply Forall2_cons_inv_l in H0 as (c & r4 & [Hc _] & H0 & ->). inversion H0; subst.
    cbn [y_ty y_txt word_sym op_sym] in *. eapply d_typeid; eauto.
  - apply Forall2_cons_inv_l in H0 as (u & r & [Hu Hs] & H0 & ->). apply Forall2_cons_inv_l in H0 as (o & r1 & [Ho _] & H0 & ->).
    cbn [y_ty y_txt word_sym op_sym] in *. rewrite <- Hs, <- Ho. eapply d_assign; [exact Hu|rewrite Ho; apply ty_in_spec; reflexivity|eauto].
  - apply d_term. eauto.
  - apply Forall2_cons_inv_l in H0 as (u & r & [Hu Hs] & H0 & ->). cbn [y_ty y_txt op_sym] in *. rewrite <- Hs, <- Hu.
    apply d_sign; [rewrite Hu; eapply sign_types; eassumption|eauto].
  - apply Forall2_cons_inv_l in H0 as (u & r & [Hu Hs] & H0 & ->). cbn [y_ty y_txt op_sym] in *. rewrite <- Hs.
    apply d_not; [exact Hu|eauto].
  - apply d_suffixed, d_prefixed. eauto.
  - apply Forall2_app_inv_l in H0 as (r2 & r3 & H1 & H0 & ->). apply Forall2_cons_inv_l in H0 as (i1 & r4 & [Hi _] & H0 & ->).
    apply Forall2_cons_inv_l in H0 as (u & r & [Hu Hs] & H0 & ->). inversion H0; subst. cbn [y_ty y_txt op_sym word_sym] in *.
    rewrite <- Hs. eapply d_is; eauto.
  - apply Forall2_app_inv_l in H2 as (r2 & r3 & H3 & H2 & ->). apply Forall2_cons_inv_l in H2 as (u & r4 & [Hu _] & H2 & ->).
    apply Forall2_app_inv_l in H2 as (r5 & r6 & H4 & H2 & ->). apply Forall2_cons_inv_l in H2 as (v & r7 & [Hv _] & H2 & ->).
    eapply d_tern; eauto.
  - apply d_infix. eauto.
  - apply d_level. eauto.
  - destruct (plain_level _ _ _ e) as (Ho & _ & ->). apply Forall2_app_inv_l in H1 as (r2 & r3 & H3 & H1 & ->).
    apply Forall2_cons_inv_l in H1 as (u & r4 & [Hu Hs] & H1 & ->). cbn [y_ty y_txt op_sym] in *. rewrite <- Hs, <- Hu.
    eapply d_mul; eauto. rewrite Hu. exact Ho.
  - destruct (plain_level _ _ _ e) as (Ho & _ & ->). apply Forall2_app_inv_l in H1 as (r2 & r3 & H3 & H1 & ->).
    apply Forall2_cons_inv_l in H1 as (u & r4 & [Hu Hs] & H1 & ->). cbn [y_ty y_txt op_sym] in *. rewrite <- Hs, <- Hu.
    eapply d_bin; eauto. rewrite Hu. exact Ho.
  - destruct (plain_level _ _ _ e) as (Ho & _ & ->). apply Forall2_app_inv_l in H1 as (r2 & r3 & H3 & H1 & ->).
    apply Forall2_cons_inv_l in H1 as (u & r4 & [Hu Hs] & H1 & ->). cbn [y_ty y_txt op_sym] in *. rewrite <- Hs, <- Hu.
    eapply d_bin; eauto. rewrite Hu. exact Ho.
  - inversion H; subst. constructor.
  - destruct ps as [|q ps].
    + cbn [arg_syms] in H1. rewrite app_nil_r in H1. eapply da_one. eauto.
    + rewrite arg_syms_cons in H1. apply Forall2_app_inv_l in H1 as (r2 & r3 & H3 & H1 & ->).
      apply Forall2_cons_inv_l in H1 as (u & r4 & [Hu Hs] & H1 & ->). change (r2 ++ u :: r4) with (r2 ++ [] ++ u :: r4).
      eapply da_more; eauto. intros _ ->. inversion b0 as [|e1 q1 qs1 B1 B2]; subst. destruct (front_head _ _ _ _ [] B1) as (y & ys & E & _).
      destruct ps as [|z zs]; [cbn [arg_syms] in H1|rewrite arg_syms_cons in H1]; rewrite E in H1; inversion H1.
Qed.

Lemma linked_quiet ss fin : linked ss -> Forall2 same ss fin -> forall x a b y, fin = x ++ a :: b :: y -> quiet (k_type a) (k_type b) = true.
Proof.
  intros L F. induction F as [|s t ss fin [Ht _] F IH]; intros x a b y E; [destruct x; discriminate E|].
  destruct x as [|x0 x]; cbn [app] in E.
  - injection E as -> ->. inversion F as [|s2 b2 ? ? [Hb _] F2]; subst. rewrite Ht, Hb. exact (proj1 (proj1 L)).
  - injection E as -> ->. eapply IH; [|reflexivity]. destruct ss; [exact I|apply L].
Qed.
Lemma quiet_const l : (forall x a b y, l = x ++ a :: b :: y -> quiet (k_type a) (k_type b) = true) -> search_any const_patterns l = None.
Proof.
  intros Q. destruct (search_any const_patterns l) as [[i k]|] eqn:E; [|reflexivity]. exfalso.
  destruct (search_split l i k E) as (pre & op & mid & post & -> & _ & _ & Hne & _ & Hin).
  destruct mid as [|m mid]; [destruct (Hne eq_refl)|]. cbn [app] in *. specialize (Q pre op m (mid ++ post) eq_refl).
  destruct k as [|[|k]]; [cbn in Hin; unfold const_patterns in Hin; set_solver|cbn in Hin; unfold const_patterns in Hin; set_solver|].
  cbn [map take] in Hin. assert (Ho : k_type op = CONST_INTEGER /\ (k_type m = OPERATOR_SCOPE \/ k_type m = IDENTIFIER)).
  { unfold const_patterns in Hin. set_unfold in Hin. naive_solver. }
  destruct Ho as [Ho [Hm|Hm]]; rewrite Ho, Hm in Q; discriminate Q.
Qed.
Theorem print_reads env e p n : bare env (Lvl 3) e p -> typed env p ->
  exists ts rest, tokenize (print_pexpr (pe_io env) p ++ $" ; ") = Ok (ts ++ rest) /\
    map k_type rest = [SEMICOLON; ENDOFFILE] /\
    ((10 * length (ts ++ rest) + 6 < n)%nat -> parse_expression env n (ts ++ rest) = Ok (p, rest)).
Proof.
  intros B T. set (semi := op_sym SEMICOLON ($";") ($" ")). set (ss := syms p ($" ") ++ [semi]).
  assert (PL : print_pexpr (pe_io env) p ++ $" ; " = layout (sitems ss)).
  { unfold ss. rewrite sitems_app, layout_app, <- (proj1 (print_syms env) _ _ _ B), <- app_assoc. reflexivity. }
  assert (So : Forall sound ss).
  { apply Forall_app. split; [apply (proj1 (syms_sound env) _ _ _ B)|]. constructor; [|constructor]. apply s_op. apply elem_of_list_In. cbn. tauto. }
  assert (Li : linked ss) by (apply (proj1 (syms_linked env) _ _ _ B); [exact I|apply follows_blank, ty_in_spec; reflexivity]).
  assert (La : forall y, last ss = Some y -> blanks (y_w y)).
  { intros y Hy. unfold ss in Hy. rewrite last_snoc in Hy. injection Hy as <-. exact blank_one. }
  destruct (C14_touching_lexemes [] (sitems ss)) as (raws & Hr & F); [left; reflexivity|apply linked_tight; assumption|].
  cbn [app] in Hr.
  destruct (join_syms ss So Li None raws F) as (mid & fin & J1 & J2 & J3); [discriminate|].
  assert (Eof : forall f o r q, (forall x, f x ENDOFFILE = None) -> joins f o r q -> joins f o (r ++ [eof_token]) (q ++ [eof_token])).
  { clear. intros f o r q Hf J. induction J; cbn [app]; [apply j_keep; [intros; apply Hf|constructor]|apply j_keep; assumption|apply j_join; assumption]. }
  assert (P1 : merge_pass merge_assign [] (raws ++ [eof_token]) = mid ++ [eof_token]).
  { apply (joins_pass merge_assign None (raws ++ [eof_token]) (mid ++ [eof_token])) with (acc := []); [|reflexivity]. apply Eof; [intros x; destruct x; reflexivity|exact J1]. }
  assert (P2 : merge_pass merge_operator [] (mid ++ [eof_token]) = fin ++ [eof_token]).
  { apply (joins_pass merge_operator None (mid ++ [eof_token]) (fin ++ [eof_token])) with (acc := []); [|reflexivity]. apply Eof; [intros x; destruct x; reflexivity|exact J2]. }
  assert (Q : search_any const_patterns (fin ++ [eof_token]) = None).
  { rewrite search_any_snoc by done. apply quiet_const. eapply linked_quiet; eassumption. }
  assert (NO : forall t, t ∈ raws ++ [eof_token] -> ~ (k_type t = RESERVED_WORD /\ k_text t = $"operator")).
  { intros t Ht [C _]. apply elem_of_app in Ht as [Ht|Ht]; [|apply elem_of_list_singleton in Ht as ->; discriminate C].
    clear - So F Ht C. unfold sitems in F. apply elem_of_list_lookup in Ht as (i & Hi).
    destruct (Forall2_lookup_r _ _ _ _ _ F Hi) as ([l w] & Hl & Hx). cbn [fst] in Hx.
    apply elem_of_list_lookup_2 in Hl. apply elem_of_list_In, in_concat in Hl as (its & H1 & H2).
    apply in_map_iff in H1 as (y & <- & Hy). apply elem_of_list_In in Hy, H2. rewrite Forall_forall in So. specialize (So y Hy).
    inversion So as [ty s w1 Hw Hs Ht1|s w1 Hs|ty s w1 Hs]; subst; cbn [y_lex y_w word_sym op_sym places] in H2.
    - apply elem_of_list_singleton in H2. injection H2 as -> _. destruct (C14_spelling_unique _ _ _ _ _ Hx Hs) as [E _].
      rewrite <- E, C in Ht1. apply ty_in_spec in Ht1. discriminate Ht1.
    - apply elem_of_list_singleton in H2. injection H2 as -> _. destruct Hx as [E _]. rewrite E in C. discriminate C.
    - apply elem_of_app in Hs as [Hs|Hs].
      + destruct (singles_one _ _ Hs) as (c & -> & Hc & _). apply elem_of_list_singleton in H2. injection H2 as -> _.
        destruct (C14_spelling_unique _ _ _ _ _ Hx Hc) as [E _]. rewrite C in E.
        repeat (apply elem_of_cons in Hs as [Hs|Hs]; [injection Hs as _ ->; discriminate E|]). inversion Hs.
      + destruct (doubles_two _ _ Hs) as (c & d & a & b & f & -> & _ & Hc & Hd & _). cbn [map places] in H2.
        assert (N : forall c ty, spelled [c] ty [c] -> ty = RESERVED_WORD -> False).
        { clear. intros c ty H. inversion H; subst; intros E; try discriminate E.
          - match goal with H : _ ∈ reserved_list |- _ => unfold reserved_list in H; repeat (apply elem_of_cons in H as [H|H]; [discriminate H|]); inversion H end.
          - match goal with H : (_, _) ∈ _ |- _ => repeat (apply elem_of_cons in H as [H|H]; [injection H as -> ->; discriminate E|]); inversion H end. }
        apply elem_of_cons in H2 as [H2|H2]; [|apply elem_of_list_singleton in H2]; injection H2 as -> _.
        * destruct (C14_spelling_unique _ _ _ _ _ Hx Hc) as [E _]. eapply N; [exact Hc|congruence].
        * destruct (C14_spelling_unique _ _ _ _ _ Hx Hd) as [E _]. eapply N; [exact Hd|congruence]. }
  assert (FN : Forall fine (fin ++ [eof_token])).
  { rewrite <- P2, <- P1. apply merge_fine; [exact operator_fine|constructor|]. apply merge_fine; [exact assign_fine|constructor|].
    apply Forall_forall. intros t Ht. split; [exact (proj1 (Forall_forall _ _) (raw_good _ _ Hr) t Ht)|].
    unfold is_operator_word. destruct (ttype_eqb _ _) eqn:E1; [|reflexivity]. destruct (str_eqb _ _) eqn:E2; [|reflexivity].
    exfalso. apply (NO t Ht). apply ttype_eqb_spec in E1. apply str_eqb_eq in E2. auto. }
  assert (TK : tokenize (layout (sitems ss)) = Ok (fin ++ [eof_token])).
  { unfold tokenize. rewrite Hr. cbn [rbind]. unfold passes. rewrite P1, P2, const_pass_none by exact Q. cbn [rbind].
    rewrite operator_id by (constructor || exact FN). reflexivity. }
  apply Forall2_app_inv_l in J3 as (ts & r1 & J3 & J4 & ->). apply Forall2_cons_inv_l in J4 as (s & r2 & [Hs _] & J4 & ->).
  inversion J4; subst. rewrite <- app_assoc in *. cbn [app] in *. exists ts, [s; eof_token]. rewrite PL.
  split; [exact TK|]. split; [cbn [map]; rewrite Hs; reflexivity|]. intros Hn.
  assert (G : Forall good (ts ++ [s; eof_token])) by (eapply Forall_impl; [exact FN|]; intros ? [? _]; assumption).
  apply Forall_app in G as [G1 G2]. inversion G2 as [|? ? Gs _]; subst.
  rewrite (reads_now env e ts (canon p) s [eof_token] n); [|apply (proj1 (syms_denote env) _ _ _ B ($" ") ts J3)| |apply Gs| |exact Hn].
  - rewrite (proj1 (bare_elab env) _ _ _ B T). reflexivity.
  - eapply Forall_impl; [exact G1|]. intros ? [? _]; assumption.
  - unfold continues. rewrite Hs. intros [[j Hj]|[H|[_ H]]].
    + destruct j as [|[|[|j]]]; apply ty_in_spec in Hj; discriminate.
    + apply ty_in_spec in H. discriminate.
    + apply ty_in_spec in H. discriminate.
Qed.
