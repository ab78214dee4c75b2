(** Properties of the reader of statements: C66. *)
From Coq Require Import Floats.SpecFloat.
From Verif Require Import Base Base_Proofs Text_Model Tok_Model Tok_Spec.
From Verif Require Import TypeTable TypeSys_Model Value_Model Parse_Model Parse_Spec Parse_Brackets Parse_Complete Parse_Sound
  Parse_Accepts Parse_Ends Parse_Tokens Parse_Props Decl_Model Stmt_Model Stmt_Spec Stmt_Proofs Stmt_Accepts Stmt_Ends Stmt_Tokens Stmt_Write.

(** The tokens of a part of a source text without operator declarations. *)
Definition source_part (ts : list token) : Prop := exists text raw pre post,
  raw_tokens text = Ok raw /\ (forall t, t ∈ raw -> ~ (k_type t = RESERVED_WORD /\ k_text t = $"operator")) /\
  tokenize text = Ok (pre ++ ts ++ post).
Lemma source_ok ts : source_part ts -> Forall good ts /\ tokens_ok ts.
Proof.
  intros (text & raw & pre & post & Hr & Ho & H). destruct (tokens_as_expected _ _ _ Hr Ho H) as [G [W Sp]].
  apply Forall_app in G as [_ G]. apply Forall_app in G as [G _]. apply Forall_app in W as [_ W]. apply Forall_app in W as [W _].
  apply Forall_app in Sp as [_ Sp]. apply Forall_app in Sp as [Sp _]. split; [exact G|split; assumption].
Qed.

(** ** Statements are read as written *)
(** A text of the grammar is read as its tree, with the error of the tree if it has one, in every environment and with every
    parameter. *)
Theorem C66_read_as_written E params ts l :
  source_part ts -> written_list true ts l -> read_method E params ts = elab_list E ([] :: params) l.
Proof.
  intros S W. destruct (source_ok ts S) as [_ T]. destruct (statements_read E) as (_ & _ & R & _).
  apply (R ts l W T ([] :: params)). lia.
Qed.
Print Assumptions C66_read_as_written.
(** So no text has two meanings: an else belongs to the nearest if. *)
Theorem C66_unambiguous E sc ts l l' :
  source_part ts -> written_list true ts l -> written_list true ts l' -> elab_list E sc l = elab_list E sc l'.
Proof.
  intros S W W'. destruct (source_ok ts S) as [_ T]. destruct (statements_read E) as (_ & _ & R & _).
  rewrite <- (R ts l W T sc (2 * length ts + 2)%nat), <- (R ts l' W' T sc (2 * length ts + 2)%nat); [reflexivity|lia..].
Qed.
Print Assumptions C66_unambiguous.
(** Every tree has a text, which is read as that tree. *)
Theorem C66_every_tree E params l : says_all l -> Forall spelled_ok (write_list l) ->
  read_method E params (write_list l) = elab_list E ([] :: params) l.
Proof.
  intros H Sp. destruct (statements_read E) as (_ & _ & R & _). apply R; [|split|lia].
  - destruct writes as (_ & W & _). apply W. exact H.
  - destruct writes_made as (_ & M & _). apply M. exact H.
  - exact Sp.
Qed.
Print Assumptions C66_every_tree.
(** Whatever is accepted is a text of the lax grammar, to its end, with the tree the reader delivers. *)
Theorem C66_sound E params ts q :
  source_part ts -> read_method E params ts = Ok q ->
  exists l, written_list false ts l /\ elab_list E ([] :: params) l = Ok q.
Proof.
  intros S H. destruct (source_ok ts S) as [G _]. destruct (statements_accept E (2 * length ts + 2)) as (_ & IL & _).
  apply (IL _ _ _ G H).
Qed.
Print Assumptions C66_sound.

(** ** Reading ends *)
Theorem C66_terminates E params ts : (forall p, se_each E p <> Fuel) -> read_method E params ts <> Fuel.
Proof. intros He. destruct (statements_end E He (2 * length ts + 2)) as (_ & IL & _). apply IL. lia. Qed.
Print Assumptions C66_terminates.
Lemma more_rounds_le E n m sc ts : (forall p, se_each E p <> Fuel) -> (2 * length ts + 1 < n)%nat -> (n <= m)%nat ->
  statements E m sc ts = statements E n sc ts.
Proof.
  intros He Hn L. induction L as [|m L IH]; [reflexivity|]. destruct (more_rounds E m) as (_ & M & _).
  apply M; [|exact IH]. destruct (statements_end E He n) as (_ & IL & _). apply IL. exact Hn.
Qed.
Theorem C66_rounds_irrelevant E n params ts : (forall p, se_each E p <> Fuel) -> (2 * length ts + 1 < n)%nat ->
  statements E n ([] :: params) ts = read_method E params ts.
Proof.
  intros He Hn. unfold read_method. destruct (Nat.le_ge_cases n (2 * length ts + 2)).
  - symmetry. apply more_rounds_le; auto.
  - apply more_rounds_le; auto. lia.
Qed.
Print Assumptions C66_rounds_irrelevant.

(** ** Scopes *)
(** A statement only adds names to the innermost scope, names that were not there yet. *)
Lemma define_adds x k top sc sc' : define_local x k (top :: sc) = Ok sc' -> sc' = ((x, k) :: top) :: sc /\ sc_find top x = None.
Proof. cbn [define_local]. destruct (sc_find top x) eqn:F; [discriminate|]. intros H. injection H as <-. auto. Qed.
Definition extended (top : list (str * symk)) (sc sc' : scopes) : Prop :=
  exists added, sc' = (added ++ top) :: sc /\ NoDup (map fst added) /\ forall x, x ∈ map fst added -> sc_find top x = None.
Lemma extended_refl top sc : extended top sc (top :: sc).
Proof. exists []. split; [reflexivity|]. split; [constructor|]. intros x H. inversion H. Qed.
Lemma find_app a top x : sc_find (a ++ top) x = match sc_find a x with Some k => Some k | None => sc_find top x end.
Proof. induction a as [|[y k] a IH]; [reflexivity|]. cbn [app sc_find]. destruct (str_eqb x y); [reflexivity|exact IH]. Qed.
Lemma find_none a x : sc_find a x = None <-> x ∉ map fst a.
Proof.
  induction a as [|[y k] a IH]; cbn [sc_find map fst]; [split; [intros _ H; inversion H|reflexivity]|].
  destruct (str_eqb x y) eqn:B.
  - apply str_eqb_eq in B. subst. split; [discriminate|]. intros H. destruct H. left.
  - rewrite IH. split.
    + intros H Hx. apply elem_of_cons in Hx as [->|Hx]; [|auto]. rewrite (proj2 (str_eqb_eq y y) eq_refl) in B. discriminate.
    + intros H Hx. apply H. right. exact Hx.
Qed.
Lemma extended_trans top sc mid sc' : extended top sc mid -> (forall t s, mid = t :: s -> extended t s sc') -> extended top sc sc'.
Proof.
  intros (a & -> & N & F) H. destruct (H _ _ eq_refl) as (b & -> & N2 & F2). exists (b ++ a). rewrite app_assoc. split; [reflexivity|].
  assert (F2' : forall x, x ∈ map fst b -> x ∉ map fst a /\ sc_find top x = None).
  { intros x Hx. specialize (F2 x Hx). rewrite find_app in F2. destruct (sc_find a x) eqn:Fa; [discriminate|]. apply find_none in Fa. auto. }
  split.
  - rewrite map_app. apply NoDup_app. split; [exact N2|]. split; [intros x Hx; apply F2'; exact Hx|exact N].
  - intros x Hx. rewrite map_app in Hx. apply elem_of_app in Hx as [Hx|Hx]; [apply F2'; exact Hx|apply F; exact Hx].
Qed.
Lemma extended_one x k top sc sc' : define_local x k (top :: sc) = Ok sc' -> extended top sc sc'.
Proof.
  intros H. apply define_adds in H as [-> Hf]. exists [(x, k)]. split; [reflexivity|]. split.
  - cbn. constructor; [intros Hx; inversion Hx|constructor].
  - intros y Hy. apply elem_of_list_singleton in Hy. cbn in Hy. subst. exact Hf.
Qed.
Lemma elab_extends E : forall s top sc q sc', elab_stmt E (top :: sc) s = Ok (q, sc') -> extended top sc sc'.
Proof.
  assert (D : forall init top sc d e q sc', elab_decl E init (top :: sc) d e = Ok (q, sc') -> extended top sc sc').
  { intros init top sc [t x m a] e q sc' H. rewrite elab_decl_eq in H. destruct (pe_name _ _) as [[]|]; try discriminate. rb H c Hc.
    destruct (negb _); [discriminate|]. rb H sc1 Hs. apply extended_one in Hs. destruct e.
    - destruct (negb init); [discriminate|]. rb H p Hp. rb H u Hu. injection H as <- <-. exact Hs.
    - destruct (_ && _); [discriminate|]. injection H as <- <-. exact Hs. }
  fix IH 1. intros s top sc q sc' H. destruct s;
    try (cbn [elab_stmt] in H; unfold node_of in H; repeat (let x := fresh "y" in let Hx := fresh "Hx" in rb H x Hx); injection H as <- <-; apply extended_refl).
  - cbn [elab_stmt] in H. unfold here_too in H. rb H x Hx. injection H as <- <-. destruct x as [x s]. apply D in Hx. exact Hx.
  - cbn [elab_stmt] in H. unfold here_too in H. rb H y Hy. injection H as <- <-. destruct y as [y s]. unfold elab_var in Hy. change declare_name with define_local in Hy. rb Hy c Hc. rb Hy p Hp.
    destruct (negb _); [discriminate|]. rb Hy sc1 Hs. injection Hy as <- <-. apply extended_one in Hs. exact Hs.
  - cbn [elab_stmt] in H. rb H p Hp. rb H a Ha. destruct a as [a sa]. cbn [fst snd] in H. apply IH in Ha. rb H b' Hb. destruct b' as [b' sb].
    injection H as <- <-. cbn [snd]. destruct b as [b|]; [|injection Hb as <- <-; exact Ha].
    apply (extended_trans _ _ _ _ Ha). intros t s' ->. apply (IH b) in Hb. exact Hb.
  - rewrite elab_switch in H. rb H p Hp. rb H r Hr. destruct (negb _); [discriminate|]. injection H as <- <-. apply extended_refl.
  - cbn [elab_stmt] in H. rb H p Hp. rb H b Hb. destruct b as [b sb]. injection H as <- <-. cbn [snd]. apply (IH s) in Hb. exact Hb.
Qed.
Theorem C66_scopes E n top sc ts q sc' rest :
  source_part ts -> statement E n (top :: sc) ts = Ok (q, sc', rest) ->
  exists added, sc' = (added ++ top) :: sc /\ NoDup (map fst added) /\ (forall x, x ∈ map fst added -> x ∉ map fst top).
Proof.
  intros S H. destruct (source_ok ts S) as [G _]. destruct (statements_accept E n) as (IS & _).
  destruct (IS _ _ _ _ _ G H) as (k & ts1 & s & _ & _ & _ & EL). apply elab_extends in EL as (added & -> & N & F).
  exists added. split; [reflexivity|]. split; [exact N|]. intros x Hx. apply find_none. apply F. exact Hx.
Qed.
Print Assumptions C66_scopes.
(** A name means the declaration in the innermost scope that has one, and only without any what it means outside of the method. *)
Lemma find_in l x : x ∉ map fst l -> sc_find l x = None.
Proof.
  induction l as [|[y k] l IH]; [reflexivity|]. cbn [map fst sc_find]. intros H. rewrite not_elem_of_cons in H. destruct H as [N H].
  unfold str_eqb. rewrite bool_decide_eq_false_2 by exact N. apply IH. exact H.
Qed.
Lemma find_first l x k l' : x ∉ map fst l -> sc_find (l ++ (x, k) :: l') x = Some k.
Proof.
  induction l as [|[y k'] l IH]; cbn [map fst sc_find app]; intros H.
  - unfold str_eqb. rewrite bool_decide_eq_true_2 by reflexivity. reflexivity.
  - rewrite not_elem_of_cons in H. destruct H as [N H]. unfold str_eqb. rewrite bool_decide_eq_false_2 by exact N. apply IH. exact H.
Qed.
Theorem C66_innermost E inner l k l' outer x : Forall (fun sc => x ∉ map fst sc) inner ->
  pe_name (inside E inner) x = pe_name (se_env E) x /\
  (x ∉ map fst l -> pe_name (inside E (inner ++ (l ++ (x, k) :: l') :: outer)) x = Some k).
Proof.
  intros F. cbn [inside pe_name]. split.
  - induction F as [|sc inner N F IH]; [reflexivity|]. cbn [local]. rewrite find_in by exact N. exact IH.
  - intros N. assert (L : local (inner ++ (l ++ (x, k) :: l') :: outer) x = Some k).
    { induction F as [|sc inner M F IH]; cbn [local app]; [rewrite find_first by exact N; reflexivity|]. rewrite find_in by exact M. exact IH. }
    rewrite L. reflexivity.
Qed.
Print Assumptions C66_innermost.
Example C66_innermost_ex : Forall (fun sc => $"x" ∉ map fst sc) [[($"y", KVar t_int true)]; []] /\ ($"x" ∉ map fst [($"z", KVar t_int true)]).
Proof. split; [repeat constructor|]; cbn; rewrite ?not_elem_of_cons; repeat split; try discriminate; apply not_elem_of_nil. Qed.
(** Blocks, for and foreach loops, switch and try statements leave no name behind. *)
Theorem C66_closed E n sc t r q sc' rest :
  k_type t = BRACKET_CURLY_OPEN \/ (k_type t = KEYWORD /\ k_text t ∈ [$"for"; $"foreach"; $"switch"; $"try"]) ->
  statement E n sc (t :: r) = Ok (q, sc', rest) -> sc' = sc.
Proof.
  intros Ht H. destruct n as [|n]; [discriminate|]. cbn [statement] in H. destruct Ht as [Ht|[Ht Hw]].
  - rewrite (is_true _ _ Ht) in H. rb H b Hb. rb H ts1 H1. injection H as _ <- _. reflexivity.
  - rewrite (is_false t BRACKET_CURLY_OPEN), (is_false t IDENTIFIER), (is_true _ _ Ht) in H by congruence. cbv zeta in H.
    repeat (apply elem_of_cons in Hw as [Hw|Hw];
      [rewrite Hw in H; cbn [flat str_eqb] in H;
       match type of H with context [flat ?a ?b ?c ?d] => change (flat a b c d) with (@None (res (pstmt * scopes * list token))) in H end;
       cbv iota in H;
       repeat match type of H with (if str_eqb ?a ?b then _ else _) = _ =>
         let v := eval vm_compute in (str_eqb a b) in change (str_eqb a b) with v in H; cbv iota in H end;
       repeat (let x := fresh "y" in let Hx := fresh "Hx" in rb H x Hx); try (destruct (negb _); [discriminate H|]);
       repeat (let x := fresh "y" in let Hx := fresh "Hx" in rb H x Hx); injection H as _ <- _; reflexivity|]). inversion Hw.
Qed.
Print Assumptions C66_closed.
Lemma statements_step E n sc t r : statements E (S n) sc (t :: r) =
  if is t ENDOFFILE then Ok []
  else let! x := statement E n sc (t :: r) in let! l := statements E n (snd (fst x)) (snd x) in Ok (add_node (fst (fst x)) l).
Proof. reflexivity. Qed.
Lemma statement_block E n sc t r : k_type t = BRACKET_CURLY_OPEN -> statement E (S n) sc (t :: r) =
  let! b := (let! b := collect_scope (t :: r) in let! l := statements E n ([] :: sc) (fst b) in Ok (l, snd b)) in
  let! ts1 := next (snd b) in Ok (the_block (fst b), sc, ts1).
Proof. intros Ht. cbn [statement]. rewrite (is_true _ _ Ht). reflexivity. Qed.
(** What is inside a block and what follows it do not depend on each other, for all tokens. *)
Theorem C66_block_apart E n sc o body c rest : (forall p, se_each E p <> Fuel) ->
  k_type o = BRACKET_CURLY_OPEN -> k_type c = BRACKET_CURLY_CLOSE -> nested_curly body ->
  (2 * length (o :: body ++ c :: rest) + 1 < n)%nat ->
  statements E n sc (o :: body ++ c :: rest) =
  let! b := statements E n ([] :: sc) body in
  let! r := statements E n sc rest in
  Ok (add_node (the_block b) r).
Proof.
  intros He Ho Hc N Hn. cbn [length] in Hn. rewrite app_length in Hn. cbn [length] in Hn.
  destruct n as [|n]; [lia|]. rewrite statements_step. rewrite (is_false o ENDOFFILE) by congruence. destruct n as [|n]; [lia|].
  rewrite (statement_block _ _ _ _ _ Ho). rewrite (proj2 (collect_scope_iff _ body (c :: rest))) by (exists o, c, rest; auto).
  cbn [rbind fst snd next].
  rewrite (more_rounds_le E n (S (S n)) ([] :: sc) body) by (auto; lia).
  destruct (statements E n ([] :: sc) body); cbn [rbind fst snd next]; try reflexivity.
  rewrite (more_rounds_le E (S n) (S (S n)) sc rest) by (auto; lia). reflexivity.
Qed.
Print Assumptions C66_block_apart.

(** ** Examples *)
(** The types int and bool, the variables a and b of type int and p of type bool, and the method f. *)
Definition st_name (x : str) : option symk :=
  if str_eqb x ($"f") then Some KMethod else if str_eqb x ($"int") then Some (KType t_int true)
  else if str_eqb x ($"bool") then Some (KType t_bool true)
  else if str_eqb x ($"p") then Some (KVar t_bool true)
  else if str_eqb x ($"a") then Some (KVar t_int true) else if str_eqb x ($"b") then Some (KVar t_int true) else None.
Definition st_env : senv :=
  SEnv (PEnv ex_table st_name (fun _ l => if (length l =? 0)%nat || (length l =? 1)%nat then Some t_int else None)
             (fun _ _ _ => None) (fun _ => true) ex_fio)
       (fun _ => true) (fun _ => Ok tt).
Definition tokens_of (text : str) : list token := match tokenize text with Ok l => l | _ => [] end.
Definition body_of (text : str) : list token := removelast (tokens_of text).
Definition read_text (text : str) : res (list pstmt) := read_method st_env [[]] (body_of text).

Definition ex_while : str := $"while ( p ) { int i = a ; i = f ( b ) ; }".
Definition ex_ts : list token := Eval vm_compute in body_of ex_while.
Lemma ex_source : source_part ex_ts.
Proof.
  destruct (raw_tokens ex_while) as [raw| | |] eqn:R; try (vm_compute in R; discriminate).
  exists ex_while, raw, [], (skipn (length ex_ts) (tokens_of ex_while)). split; [exact R|]. split.
  - vm_compute in R. injection R as <-. intros t Ht [H1 _].
    repeat (apply elem_of_cons in Ht as [->|Ht]; [discriminate H1|]). inversion Ht.
  - vm_compute. reflexivity.
Qed.
Definition tk (n : nat) : token := nth n ex_ts (wtok ENDOFFILE []).
Definition ex_tree : list ss :=
  [YWhile (XName ($"p")) (YBlock [YDecl (NamedType ($"int") ($"i") None None) (Some (XName ($"a")));
                                  YAssign (XAssign ($"i") ASSIGN (XCall ($"f") [XName ($"b")]))])].
Lemma name_expr k t : k_type t = IDENTIFIER -> expr true k [t] (XName (k_text t)).
Proof. intros H. exists Name. apply (lift_up 0); [lia|]. apply d_infix, term_infix, d_name. exact H. Qed.
Example C66_ex_hypotheses : source_part ex_ts /\ written_list true ex_ts ex_tree.
Proof.
  split; [exact ex_source|].
  change ex_ts with ((tk 0 :: [tk 1; tk 2; tk 3] ++ (tk 4 :: (([tk 5; tk 6; tk 7; tk 8] ++ tk 9 ::
    [tk 10; tk 11; tk 12; tk 13; tk 14; tk 15] ++ [tk 16])) ++ [tk 17])) ++ []).
  apply (wl_full true Full); [|discriminate|apply wl_nil].
  apply (w_while true (tk 0) [tk 1; tk 2; tk 3] [tk 2]); [split; reflexivity|exists (tk 1), (tk 3); repeat split; reflexivity|apply (name_expr 3 (tk 2)); reflexivity|].
  eapply w_block; [exists (tk 4), (tk 17); repeat split; reflexivity|discriminate|].
  apply (wl_semi true [tk 5; tk 6; tk 7; tk 8]); [|reflexivity|].
  - apply (w_init true [tk 5; tk 6] (NamedType ($"int") ($"i") None None) (tk 7) [tk 8]); [|reflexivity|apply (name_expr 3 (tk 8)); reflexivity].
    apply (nt_tokens true (tk 5) (tk 6) [] [] None None); reflexivity.
  - apply (wl_semi true [tk 10; tk 11; tk 12; tk 13; tk 14; tk 15] _ (tk 16) []); [|reflexivity|apply wl_nil].
    apply w_assign; [reflexivity|apply ty_in_spec; reflexivity|]. exists Open.
    apply (lift_up 0); [lia|]. apply d_infix, term_infix. apply (d_assign true (tk 10) (tk 11) _ Closed); [reflexivity|apply ty_in_spec; reflexivity|].
    apply (lift_up 0); [lia|]. apply d_infix, term_infix. apply (d_call true (tk 12) (tk 13) [tk 14] (tk 15)); try reflexivity; [discriminate|].
    destruct (name_expr 3 (tk 14) eq_refl) as (e & D). eapply da_one. exact D.
Qed.
Example C66_ex : read_text ex_while =
  Ok [QWhile (PSym ($"p") (KVar t_bool true))
        (Some (QBlock [QDecl t_int ($"i") false false (Some (PSym ($"a") (KVar t_int true)));
                       QAssign ($"i") (KVar t_int true) (PCall ($"f") [PSym ($"b") (KVar t_int true)] t_int)]))].
Proof. vm_compute. reflexivity. Qed.
(** A tree with every kind of nesting: if (p) { return; } else while (p) { switch (a) { case 1: { break; } default: { throw; } } }
    try { var v = a; } catch (int e) { print(e); } finally { assert(p); } for (int i = a; p; i = b) { foreach (int j : a) f(); } *)
Definition ex_all : list ss :=
  [YIf (XName ($"p")) (YBlock [YReturn None])
     (Some (YWhile (XName ($"p")) (YBlock [YSwitch (XName ($"a"))
        [(Some (XLit CONST_INTEGER ($"1")), [YBreak]); (None, [YThrow None])]])));
   YTry [YVar ($"v") None None (XName ($"a"))]
     [(Some (Some (NamedType ($"int") ($"e") None None)), [YPrint (XName ($"e"))]); (None, [YAssert (XName ($"p")) None])];
   YFor (Some (YDecl (NamedType ($"int") ($"i") (Some ($"const")) None) (Some (XName ($"a"))))) (Some (XName ($"p")))
        (Some (YAssign (XAssign ($"i") ASSIGN (XName ($"b")))))
        (YBlock [YForeach (NamedType ($"int") ($"j") None None) (XName ($"a")) (YExpr (XCall ($"f") []))])].
Example C66_ex_tree : says_all ex_all /\ Forall spelled_ok (write_list ex_all) /\
  exists l, read_method st_env [[]] (write_list ex_all) = Ok l /\ length l = 3%nat.
Proof.
  assert (N : forall x, writable (XName x)) by (intros; constructor).
  split; [|split].
  - repeat (constructor; try apply N); try reflexivity; try (apply ty_in_spec; reflexivity).
    all: try (injection H as <-; try exact I; repeat (constructor; try apply N); apply ty_in_spec; reflexivity).
    intros a Ha. inversion Ha.
  - apply Forall_forall. intros t Ht. vm_compute in Ht.
    repeat (apply elem_of_cons in Ht as [->|Ht]; [unfold spelled_ok; cbn [k_text k_type];
      intros H; first [left; reflexivity | exfalso; repeat (apply elem_of_cons in H as [H|H]; [discriminate H|]); inversion H]|]). inversion Ht.
  - eexists. split; [vm_compute; reflexivity|reflexivity].
Qed.
Example C66_sound_ex : exists q, read_method st_env [[]] ex_ts = Ok q.
Proof. eexists. vm_compute. reflexivity. Qed.
Example C66_terminates_ex : forall p, se_each st_env p <> Fuel.
Proof. discriminate. Qed.
(** A declaration adds its name, a block leaves the scopes as they were. *)
Example C66_scopes_ex :
  (exists q r, statement st_env 50 [[]] (tokens_of ($"int i = a ; ")) = Ok (q, [[($"i", KVar t_int true)]], r)) /\
  (exists q r, statement st_env 50 [[]] (tokens_of ($"{ int i = a ; } ")) = Ok (q, [[]], r)).
Proof. split; do 2 eexists; vm_compute; reflexivity. Qed.
(** A name ends with its block, and hides the one outside of it. *)
Example C66_block_ex :
  read_text ($"{ int x = 1 ; } x = 2 ; ") = Throw "InvalidSymbol" /\
  read_text ($"int x = 1 ; int x = 2 ; ") = Throw "DuplicateIdentifier" /\
  (exists l, read_text ($"{ int x = 1 ; } int x = 2 ; ") = Ok l) /\ (exists l, read_text ($"int x = 1 ; { int x = 2 ; } ") = Ok l).
Proof. split; [|split; [|split]]; try (eexists; vm_compute; reflexivity); vm_compute; reflexivity. Qed.

(** ** What the reader lets pass, and what it rejects *)
(** Statements need not be separated by a semicolon. *)
Theorem C66_semicolon_refuted : exists text l, read_text text = Ok l /\ length l = 2%nat /\ SEMICOLON ∉ map k_type (body_of text).
Proof.
  exists ($"a = f ( ) f ( ) "). eexists. split; [vm_compute; reflexivity|]. split; [reflexivity|].
  vm_compute. intros H. repeat (apply elem_of_cons in H as [H|H]; [discriminate H|]). inversion H.
Qed.
Print Assumptions C66_semicolon_refuted.
(** With a semicolon in front of it else is rejected, without one it is accepted. *)
Theorem C66_else_refuted :
  read_text ($"if ( p ) f ( a ) ; else f ( b ) ; ") = Throw "SyntaxError" /\
  exists l, read_text ($"if ( p ) f ( a ) else f ( b ) ; ") = Ok l.
Proof. split; [vm_compute; reflexivity|eexists; vm_compute; reflexivity]. Qed.
Print Assumptions C66_else_refuted.
(** Any token is taken for the semicolons and the bracket in the head of a for loop. *)
Theorem C66_for_refuted :
  read_text ($"for ( int i = a ) p , i ++ ; { f ( i ) ; } ") = read_text ($"for ( int i = a ; p ; i ++ ) { f ( i ) ; } ") /\
  exists l, read_text ($"for ( int i = a ; p ; i ++ ) { f ( i ) ; } ") = Ok l.
Proof. split; [vm_compute; reflexivity|eexists; vm_compute; reflexivity]. Qed.
Print Assumptions C66_for_refuted.
(** Two finally blocks are accepted if the first one is empty, and catch blocks behind a finally block. *)
Theorem C66_finally_refuted :
  (exists l, read_text ($"try { f ( ) ; } finally { } finally { f ( ) ; } ") = Ok l) /\
  (exists l, read_text ($"try { f ( ) ; } finally { f ( ) ; } catch { f ( ) ; } ") = Ok l) /\
  read_text ($"try { f ( ) ; } finally { f ( ) ; } finally { f ( ) ; } ") = Throw "SyntaxError".
Proof. split; [eexists; vm_compute; reflexivity|split; [eexists; vm_compute; reflexivity|vm_compute; reflexivity]]. Qed.
Print Assumptions C66_finally_refuted.
(** A name declared by the statement behind an if or while is visible behind it. *)
Theorem C66_branch_scope_refuted : exists l, read_text ($"if ( p ) int x = 1 ; x = 2 ; ") = Ok l.
Proof. eexists. vm_compute. reflexivity. Qed.
Print Assumptions C66_branch_scope_refuted.
(** A local name hides the parameter of the same name, and a variable is visible in its own initial value. *)
Theorem C66_parameter_refuted :
  (exists l, read_method st_env [[($"x", KVar t_int true)]] (body_of ($"int x = 1 ; ")) = Ok l) /\
  (exists l, read_text ($"int x = x ; ") = Ok l).
Proof. split; eexists; vm_compute; reflexivity. Qed.
Print Assumptions C66_parameter_refuted.
(** Without a semicolon at the end of a block the reader looks at the token behind the last one. *)
Theorem C66_last_semicolon_refuted : read_text ($"{ a = b } ") = UB.
Proof. vm_compute. reflexivity. Qed.
Print Assumptions C66_last_semicolon_refuted.
