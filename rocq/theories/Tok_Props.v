(** Properties of the tokenizer: C11-C17. *)
From Verif Require Import Base Base_Proofs Text_Model Text_Proofs Tok_Model Tok_Spec Tok_Proofs Tok_Proofs2 Tok_Proofs3 Tok_Proofs4 Tok_Proofs5 Tok_Proofs6 Tok_Proofs7 Tok_Proofs8.
From Coq Require Import Sorting.Sorted.

(** ** C11: tokenization ends with one end-of-file token *)
(** Whatever the text: if its last word is not [operator], the result is a list without end-of-file tokens followed by one. *)
Theorem C11_one_eof_partial text l :
  tokenize text = Ok l ->
  (forall raw t, raw_tokens text = Ok (raw ++ [t; eof_token]) -> ~ (k_type t = RESERVED_WORD /\ k_text t = $"operator")) ->
  exists body, l = body ++ [eof_token] /\ Forall (fun t => k_type t <> ENDOFFILE) body.
Proof.
  intros H Hop. destruct (tokenize_eof text l H) as (raw & body & Hr & Hb & [->|(t & Hl & Ht & _)]); [eauto|].
  exfalso. destruct raw as [|x raw _] using rev_ind; [done|]. rewrite last_snoc in Hl. injection Hl as ->.
  apply (Hop raw t); [|done]. by rewrite <- app_assoc in Hr.
Qed.
Print Assumptions C11_one_eof_partial.
Example C11_one_eof_ex : exists l, tokenize ($"int a = 1; // x
") = Ok l /\ length l = 6%nat /\ last l = Some eof_token.
Proof. eexists. split; [vm_compute; reflexivity|done]. Qed.

(** The exception is real: the end-of-file token is swallowed by a trailing [operator]. *)
Theorem C11_one_eof_refuted : exists l, tokenize ($"operator ") = Ok l /\ Forall (fun t => k_type t <> ENDOFFILE) l.
Proof. eexists. split; [vm_compute; reflexivity|]. repeat constructor; discriminate. Qed.
Print Assumptions C11_one_eof_refuted.

(** The scanner removes tokens from an empty list only when a block comment end is directly followed by another
    comment mark; on every other text it returns tokens or reports a syntax error. *)
Theorem C11_no_underflow text :
  (forall x y, text <> x ++ $"*//" ++ y) -> (forall x y, text <> x ++ $"*/*" ++ y) ->
  (exists l, tokenize text = Ok l) \/ (exists e, tokenize text = Throw e).
Proof.
  intros H1 H2.
  destruct (no_underflow_run text [] t_init H1 H2 at_init) as [s Hs]; [done|done|].
  assert (exists r, raw_tokens text = Ok r) as [r Hr].
  { unfold raw_tokens. rewrite t_run_app, Hs. cbn [rbind t_run].
    assert (exists s', t_step s (chr 0) = Ok s') as [s' ->]; [|cbn; eauto].
    unfold t_step, open_comment. change (bool_decide (chr 0 = chr 35)) with false. change (bool_decide (chr 0 = chr 47)) with false.
    change (bool_decide (chr 0 = chr 42)) with false. rewrite !andb_false_r. cbn [rbind].
    repeat case_match; eauto. }
  unfold tokenize. rewrite Hr. cbn [rbind]. unfold passes.
  set (m := merge_pass merge_operator [] (merge_pass merge_assign [] r)).
  destruct (const_pass_fuel (length m) m (le_n _)) as [Hf Hu]. destruct (const_pass (length m) m) as [b|e| |]; try done; cbn; eauto.
Qed.
Print Assumptions C11_no_underflow.
Example C11_no_underflow_ex : (exists l, tokenize ($"/* a */ b ") = Ok l) /\ (exists e, tokenize ($"1.2 ") = Throw e).
Proof. split; eexists; vm_compute; reflexivity. Qed.
(** Two adjacent block comments at the start of a text remove a token from an empty list. *)
Theorem C11_underflow_refuted : tokenize ($"/*a*//*b*/ c ") = UB.
Proof. by vm_compute. Qed.
Print Assumptions C11_underflow_refuted.

(** The last word of a text is lost unless something follows it. *)
Theorem C11_trailing_word_refuted : shapes (tokenize ($"a b")) = shapes (tokenize ($"a ")).
Proof. by vm_compute. Qed.
Print Assumptions C11_trailing_word_refuted.

(** ** C12: layout *)
Theorem C12_layout before w w' after :
  (exists slash, place_after before = Code slash) -> blanks w -> blanks w' ->
  shapes (tokenize (before ++ w ++ after)) = shapes (tokenize (before ++ w' ++ after)).
Proof. intros [sl H]. by eapply c12. Qed.
Print Assumptions C12_layout.
Example C12_layout_ex : (exists slash, place_after ($"int a") = Code slash) /\ blanks ($" ") /\ blanks [chr 10; chr 9] /\
  exists l, tokenize ($"int a" ++ $" " ++ $"= 1;") = Ok l.
Proof.
  split; [by eexists|]. split; [split; [done|set_solver]|]. split; [split; [done|set_solver]|].
  eexists. vm_compute. reflexivity.
Qed.

(** ** C13: comments *)
Theorem C13_line_comment before text after :
  in_code before -> chr 10 ∉ text ->
  shapes (tokenize (before ++ ($"//" ++ text) ++ chr 10 :: after)) = shapes (tokenize (before ++ chr 10 :: after)).
Proof. intros H Ht. apply (c13_line before text after H). intros c Hc ->. done. Qed.
Print Assumptions C13_line_comment.
Theorem C13_hash_comment before w text after :
  (exists slash, place_after before = Code slash) -> blanks w -> chr 10 ∉ text ->
  shapes (tokenize (before ++ w ++ ($"#" ++ text) ++ chr 10 :: after)) = shapes (tokenize (before ++ w ++ chr 10 :: after)).
Proof. intros [sl H] Hw Ht. apply (c13_hash before w text after sl H Hw). intros c Hc ->. done. Qed.
Print Assumptions C13_hash_comment.
(** A block comment followed by white space; its text must not contain the closing mark and must not start with a slash. *)
Theorem C13_block_comment before text w after :
  in_code before -> (forall x y, $"*" ++ text <> x ++ $"*/" ++ y) -> blanks w ->
  shapes (tokenize (before ++ ($"/*" ++ text ++ $"*/") ++ w ++ after)) = shapes (tokenize (before ++ w ++ after)).
Proof. intros H Ht Hw. apply (c13_block before text w after H); [|done]. intros x y E. apply (Ht x y E). Qed.
Print Assumptions C13_block_comment.
Example C13_ex : in_code ($"a = 1; ") /\ (forall x y, $"*" ++ $"note" <> x ++ $"*/" ++ y) /\
  exists l, tokenize ($"a = 1; " ++ ($"/*" ++ $"note" ++ $"*/") ++ $" " ++ $"b = 2; ") = Ok l.
Proof.
  split; [done|]. split; [|eexists; vm_compute; reflexivity]. intros x y E.
  assert (chr 47 ∈ ($"*" ++ $"note")) as H; [rewrite E; set_solver|]. by apply (bool_decide_pack _) in H.
Qed.
(** A hash comment directly behind a word glues that word to the next line. *)
Theorem C13_hash_glues_refuted : shapes (tokenize ($"a#x" ++ chr 10 :: $"b ")) = shapes (tokenize ($"ab ")).
Proof. by vm_compute. Qed.
Print Assumptions C13_hash_glues_refuted.
(** A block comment whose text starts with a slash ends at once. *)
Theorem C13_slash_comment_refuted : shapes (tokenize ($"a /*/ b */ c ")) <> shapes (tokenize ($"a  c ")).
Proof. by vm_compute. Qed.
Print Assumptions C13_slash_comment_refuted.
(** A comment directly behind a block comment removes the token before both, and hides the rest of the line. *)
Theorem C13_adjacent_comments_refuted : shapes (tokenize ($"a b /*x*//*y*/ c ")) = shapes (tokenize ($"a ")).
Proof. by vm_compute. Qed.
Print Assumptions C13_adjacent_comments_refuted.

(** ** C14, C15: lexemes and string literals *)
Theorem C14_lexemes w items :
  w = [] \/ blanks w -> Forall (fun lw => lex_ok (fst lw) /\ blanks (snd lw)) items ->
  exists ts, raw_tokens (w ++ layout items) = Ok (ts ++ [eof_token]) /\
    Forall2 (fun lw t => lexed (fst lw) (k_type t) (k_text t)) items ts.
Proof. intros Hw Hok. destruct (layout_tokens w items Hw Hok) as (ts & H1 & H2 & _). eauto. Qed.
Print Assumptions C14_lexemes.
Theorem C14_spelling_unique w ty txt ty' txt' : spelled w ty txt -> spelled w ty' txt' -> ty = ty' /\ txt = txt'.
Proof. apply spelled_fun. Qed.
Print Assumptions C14_spelling_unique.
Theorem C14_spelling_total w : is_word w -> exists ty txt, spelled w ty txt.
Proof. intros H. pose proof (classify_word_spelled w H) as Hs. destruct (classify_word w) as [[[ct ty] txt] o]. eauto. Qed.
Print Assumptions C14_spelling_total.
(** If no two adjacent tokens join, no [operator] word and no number occurs, the passes change nothing. *)
Lemma merge_pass_id f l : forall acc, chained (unjoined f) (reverse acc ++ l) -> merge_pass f acc l = reverse acc ++ l.
Proof.
  induction l as [|t l IH]; intros acc H; cbn [merge_pass]; [by rewrite app_nil_r|].
  destruct acc as [|a acc]; [by apply (IH [t])|]. 
  assert (f (k_type a) (k_type t) = None) as ->.
  { rewrite reverse_cons, <- app_assoc in H. by apply chained_elem in H. }
  rewrite IH; rewrite !reverse_cons, <- !app_assoc; [done|]. by rewrite reverse_cons, <- app_assoc in H.
Qed.
Theorem C14_plain_tokens text raw :
  raw_tokens text = Ok raw ->
  (forall x a b y, raw = x ++ a :: b :: y -> merge_assign (k_type a) (k_type b) = None /\ merge_operator (k_type a) (k_type b) = None) ->
  (forall t, t ∈ raw -> k_type t <> CONST_INTEGER /\ ~ (k_type t = RESERVED_WORD /\ k_text t = $"operator")) ->
  tokenize text = Ok raw.
Proof.
  intros Hr Hj Ht. unfold tokenize. rewrite Hr. cbn [rbind]. unfold passes.
  assert (forall (R : token -> token -> Prop) l, (forall x a b y, l = x ++ a :: b :: y -> R a b) -> chained R l) as Hch.
  { intros R. induction l as [|a l IH]; intros H; [done|]. apply chained_cons. split.
    - destruct l as [|b l]; [done|]. by apply (H [] a b l).
    - apply IH. intros x a' b y ->. by apply (H (a :: x) a' b y). }
  rewrite (merge_pass_id merge_assign raw []) by (apply Hch; intros x a b y E; by apply Hj in E as [? _]). change (reverse [] ++ raw) with raw.
  rewrite (merge_pass_id merge_operator raw []) by (apply Hch; intros x a b y E; by apply Hj in E as [_ ?]). change (reverse [] ++ raw) with raw.
  rewrite const_pass_none.
  - cbn [rbind]. rewrite operator_pass_id; [done|]. cbn. apply Forall_forall. intros t Hin. apply Ht in Hin as [_ Hin].
    destruct (is_operator_word t) eqn:E; [|done]. by apply is_operator_word_iff in E.
  - destruct (search_any const_patterns raw) as [[i n]|] eqn:E; [|done]. exfalso.
    destruct (search_split raw i n E) as (pre & op & mid & post & -> & Hi & Hm & Hne & Hst & Hin).
    assert (k_type op = CONST_INTEGER) as Eo.
    { destruct n as [|n]; [cbn in Hin; unfold const_patterns in Hin; set_solver|]. cbn [map take] in Hin.
      unfold const_patterns in Hin. set_unfold in Hin. naive_solver. }
    destruct (Ht op) as [Hno _]; [set_solver|done].
Qed.
Print Assumptions C14_plain_tokens.
(** The word [operator] and what follows it are one name; but behind an assignment or operator the word is joined with that. *)
Theorem C14_operator_word text pre o t post :
  raw_tokens text = Ok (pre ++ o :: t :: post) ->
  (forall x a b y, pre ++ o :: t :: post = x ++ a :: b :: y -> merge_assign (k_type a) (k_type b) = None /\ merge_operator (k_type a) (k_type b) = None) ->
  (forall u, u ∈ pre ++ o :: t :: post -> k_type u <> CONST_INTEGER) ->
  k_type o = RESERVED_WORD -> k_text o = $"operator" ->
  (forall u, u ∈ pre ++ t :: post -> ~ (k_type u = RESERVED_WORD /\ k_text u = $"operator")) ->
  ((forall l, last pre = Some l -> k_cat l <> Assignment /\ k_cat l <> Operator) ->
     exists u, tokenize text = Ok (pre ++ u :: post) /\ k_type u = IDENTIFIER /\ k_text u = $"operator" ++ k_text t) /\
  (forall pre' l, pre = pre' ++ [l] -> k_cat l = Assignment \/ k_cat l = Operator ->
     exists u, tokenize text = Ok (pre' ++ u :: t :: post) /\ k_type u = IDENTIFIER /\ k_text u = k_text l ++ $"operator").
Proof.
  intros Hr Hj Hi Ho1 Ho2 Hno. set (raw := pre ++ o :: t :: post) in *.
  assert (tokenize text = Ok (operator_pass [] raw)) as ->.
  { unfold tokenize. rewrite Hr. cbn [rbind]. unfold passes.
    assert (forall (R : token -> token -> Prop) l, (forall x a b y, l = x ++ a :: b :: y -> R a b) -> chained R l) as Hch.
    { intros R. induction l as [|a l IH]; intros H; [done|]. apply chained_cons. split.
      - destruct l as [|b l]; [done|]. by apply (H [] a b l).
      - apply IH. intros x a' b y ->. by apply (H (a :: x) a' b y). }
    rewrite (merge_pass_id merge_assign raw []) by (apply Hch; intros x a b y E; by apply Hj in E as [? _]). change (reverse [] ++ raw) with raw.
    rewrite (merge_pass_id merge_operator raw []) by (apply Hch; intros x a b y E; by apply Hj in E as [_ ?]). change (reverse [] ++ raw) with raw.
    rewrite const_pass_none; [done|].
    destruct (search_any const_patterns raw) as [[i n]|] eqn:E; [|done]. exfalso.
    destruct (search_split raw i n E) as (pr & op & mid & po & Er & Hii & Hm & Hne & Hst & Hin).
    assert (k_type op = CONST_INTEGER) as Eo.
    { destruct n as [|n]; [cbn in Hin; unfold const_patterns in Hin; set_solver|]. cbn [map take] in Hin.
      unfold const_patterns in Hin. set_unfold in Hin. naive_solver. }
    apply (Hi op); [rewrite Er; set_solver|done]. }
  assert (forall u, u ∈ pre ++ t :: post -> is_operator_word u = false) as Hw.
  { intros u Hu. destruct (is_operator_word u) eqn:E; [|done]. apply is_operator_word_iff in E. by apply Hno in Hu. }
  assert (is_operator_word o = true) as Hoo by (by apply is_operator_word_iff).
  assert (operator_pass [] pre = pre) as Hp.
  { rewrite operator_pass_id; [done|]. cbn [reverse app]. apply Forall_forall. intros u Hu. apply Hw. set_solver. }
  unfold raw. rewrite operator_pass_app, Hp.
  assert (forall u, is_operator_word u = false -> forall acc, Forall (fun x => is_operator_word x = false) acc ->
     operator_pass (u :: acc) post = reverse acc ++ u :: post) as Hpost.
  { intros u Hu acc Hacc. rewrite operator_pass_id; [by rewrite reverse_cons, <- app_assoc|]. rewrite reverse_cons.
    repeat (apply Forall_app; split); [by apply Forall_reverse|by repeat constructor|]. apply Forall_forall. intros x Hx. apply Hw. set_solver. }
  assert (Forall (fun x => is_operator_word x = false) pre) as Hpre by (apply Forall_forall; intros x Hx; apply Hw; set_solver).
  assert (is_operator_word t = false) as Ht by (apply Hw; set_solver).
  split.
  - intros Hl. exists (set_text (set_type t IDENTIFIER) ($"operator" ++ k_text t)). split; [|done]. f_equal.
    assert (operator_pass (reverse pre) (o :: t :: post) = operator_pass (o :: reverse pre) (t :: post)) as ->.
    { cbn [operator_pass]. destruct (reverse pre) as [|l q] eqn:E; [done|].
      assert (pre = reverse q ++ [l]) as Ep by (by rewrite <- (reverse_involutive pre), E, reverse_cons).
      assert (is_assign_or_op l = false) as ->.
      { destruct (Hl l) as [H1 H2]; [by rewrite Ep, last_snoc|]. unfold is_assign_or_op. by destruct (k_cat l). }
      assert (is_operator_word l = false) as -> by (apply Hw; rewrite Ep; set_solver). done. }
    cbn [operator_pass]. rewrite Ht, andb_false_r, Hoo. rewrite Hpost; [by rewrite reverse_involutive|done|by apply Forall_reverse].
  - intros pre' l -> Hl. exists (set_text (set_type o IDENTIFIER) (k_text l ++ $"operator")). split; [|done]. f_equal.
    rewrite reverse_app. cbn [reverse app]. change (reverse [l]) with [l]. cbn [app operator_pass].
    assert (is_assign_or_op l = true) as -> by (unfold is_assign_or_op; by destruct Hl as [-> | ->]). rewrite Hoo. cbn [andb].
    rewrite Ht, andb_false_r. change (is_operator_word (set_text (set_type o IDENTIFIER) (k_text l ++ $"operator"))) with false. cbn iota.
    apply Forall_app in Hpre as [Hpre _].
    rewrite Hpost; [by rewrite reverse_cons, reverse_involutive, <- app_assoc|done|]. constructor; [done|by apply Forall_reverse].
Qed.
Print Assumptions C14_operator_word.
Lemma adjacent_by (f : token -> token -> bool) l : forallb (fun p => f (fst p) (snd p)) (zip l (tail l)) = true ->
  forall x a b y, l = x ++ a :: b :: y -> f a b = true.
Proof.
  intros H x a b y ->. induction x as [|c x IH].
  - cbn [app tail zip zip_with forallb fst snd] in H. by apply andb_true_iff in H as [H _].
  - apply IH. destruct x as [|d x]; cbn [app tail zip zip_with forallb fst snd] in H |- *; by apply andb_true_iff in H as [_ H].
Qed.
Example C14_operator_word_ex : exists pre o t post u,
  raw_tokens ($"public bool operator< ( ") = Ok (pre ++ o :: t :: post) /\ pre <> [] /\
  tokenize ($"public bool operator< ( ") = Ok (pre ++ u :: post) /\ k_text u = $"operator<" /\
  (forall x a b y, pre ++ o :: t :: post = x ++ a :: b :: y -> merge_assign (k_type a) (k_type b) = None /\ merge_operator (k_type a) (k_type b) = None).
Proof.
  destruct (raw_tokens ($"public bool operator< ( ")) as [[|p [|q [|o [|t post]]]]| | |] eqn:E; try (vm_compute in E; discriminate).
  exists [p; q], o, t, post. vm_compute in E. injection E as <- <- <- <- <-.
  eexists. split; [vm_compute; reflexivity|]. split; [done|]. split; [vm_compute; reflexivity|]. split; [done|].
  intros x a b y Hx.
  assert (bool_decide (merge_assign (k_type a) (k_type b) = None /\ merge_operator (k_type a) (k_type b) = None) = true) as H.
  { refine (adjacent_by (fun a b => bool_decide (merge_assign (k_type a) (k_type b) = None /\ merge_operator (k_type a) (k_type b) = None)) _ _ x a b y Hx). vm_compute. reflexivity. }
  by apply bool_decide_eq_true in H.
Qed.
Example C14_ex : Forall (fun lw => lex_ok (fst lw) /\ blanks (snd lw)) [(Word ($"while"), $" "); (Punct (chr 40), $" "); (Word ($"x1"), [chr 10]); (Literal [(true, chr 34); (false, chr 97)], $" ")]
  /\ exists l, raw_tokens (layout [(Word ($"while"), $" "); (Punct (chr 40), $" "); (Word ($"x1"), [chr 10]); (Literal [(true, chr 34); (false, chr 97)], $" ")]) = Ok l /\ length l = 5%nat.
Proof.
  split; [|eexists; split; [vm_compute; reflexivity|done]].
  assert (forall w, is_word w \/ ~ (negb (bool_decide (w = [])) && forallb (fun c => negb (is_delim c) && negb (bool_decide (c = chr 0))) w = true)) as Hw.
  { intros w. destruct (negb (bool_decide (w = [])) && forallb (fun c => negb (is_delim c) && negb (bool_decide (c = chr 0))) w) eqn:E; [left|by right].
    apply andb_true_iff in E as [E1 E2]. apply is_word_spec. split; [intros ->; done|]. apply Forall_forall. intros c Hc.
    rewrite forallb_forall in E2. apply elem_of_list_In in Hc. apply E2 in Hc. apply andb_true_iff in Hc as [H1 H2].
    apply negb_true_iff in H1, H2. by apply bool_decide_eq_false in H2. }
  assert (blanks ($" ") /\ blanks [chr 10]) as [Hb1 Hb2] by (split; (split; [done|set_solver])).
  repeat (apply Forall_cons; split; [cbn [fst snd]; split; [|done]|]); [| | | |constructor]; cbn [lex_ok].
  - destruct (Hw ($"while")) as [H|H]; [done|by destruct H].
  - by apply (bool_decide_unpack _).
  - destruct (Hw ($"x1")) as [H|H]; [done|by destruct H].
  - intros e c Hin He. set_unfold in Hin. naive_solver.
Qed.

(** Lexemes need no white space between them except around words, and after a slash before a slash or star. *)
Theorem C14_touching_lexemes w items :
  w = [] \/ blanks w -> tight items ->
  exists ts, raw_tokens (w ++ layout items) = Ok (ts ++ [eof_token]) /\
    Forall2 (fun lw t => lexed (fst lw) (k_type t) (k_text t)) items ts.
Proof. apply tight_tokens. Qed.
Print Assumptions C14_touching_lexemes.
Example C14_touching_lexemes_ex :
  let items := [(Word ($"f"), []); (Punct (chr 40), []); (Literal [(false, chr 97)], []); (Punct (chr 44), []); (Word ($"x"), []); (Punct (chr 41), [])] in
  tight items /\ layout items = $"f(" ++ [chr 34; chr 97; chr 34] ++ $",x)".
Proof.
  cbn [tight]. split; [|done]. assert (forall c, c ∈ $"fx" -> is_word [c]) as Hw.
  { intros c Hc. apply is_word_spec. split; [done|]. repeat constructor; repeat (apply elem_of_cons in Hc as [->|Hc]; [done|]); by apply elem_of_nil in Hc. }
  split_and!; cbn [lex_ok may_touch may_end]; try (by right); try (by left); try done; try (apply Hw; apply (bool_decide_unpack _); by vm_compute);
    try (apply (bool_decide_unpack _); by vm_compute).
  - intros e c H. apply elem_of_list_singleton in H. injection H as -> ->. done.
Qed.

(** Number literals: an optional suffix i, d or f decides the type and is not kept; a number with a fraction needs d or f. *)
Theorem C14_whole_numbers a x :
  numeral a -> x ∈ [[]; $"i"; $"d"; $"f"] ->
  exists t s, tokenize (a ++ x ++ $";") = Ok [t; s; eof_token] /\ k_text t = a /\ k_type s = SEMICOLON /\
    k_type t = if decide (x = $"d") then CONST_DOUBLE else if decide (x = $"f") then CONST_FLOAT else CONST_INTEGER.
Proof.
  intros Ha Hx. destruct (whole_tokens a x Ha Hx) as (t & s & E & H1 & H2 & H3). exists t, s. split_and!; try done.
  rewrite H3. repeat case_bool_decide; repeat case_decide; done.
Qed.
Print Assumptions C14_whole_numbers.
Theorem C14_fractions a b x :
  numeral a -> numeral b ->
  (x ∈ [$"d"; $"f"] -> exists t s, tokenize (a ++ $"." ++ b ++ x ++ $";") = Ok [t; s; eof_token] /\
     k_text t = a ++ $"." ++ b /\ k_type s = SEMICOLON /\ k_type t = if decide (x = $"d") then CONST_DOUBLE else CONST_FLOAT) /\
  (x ∈ [[]; $"i"] -> tokenize (a ++ $"." ++ b ++ x ++ $";") = Throw "SyntaxError").
Proof.
  intros Ha Hb. split; [|by apply fraction_plain]. intros Hx.
  destruct (fraction_tokens a b x Ha Hb Hx) as (t & s & E & H1 & H2 & H3). exists t, s. split_and!; try done.
  rewrite H3. repeat case_bool_decide; repeat case_decide; done.
Qed.
Print Assumptions C14_fractions.
(** The same suffixes are taken from a separate word, also directly behind the dot. *)
Theorem C14_separate_suffix a x dot :
  numeral a -> x ∈ [$"d"; $"f"; $"i"] -> dot ∈ [[]; $"."] ->
  let r := tokenize (a ++ dot ++ $" " ++ x ++ $";") in
  (x = $"i" -> r = Throw "SyntaxError") /\
  (x <> $"i" -> exists t s, r = Ok [t; s; eof_token] /\ k_text t = a ++ dot /\ k_type s = SEMICOLON /\
     k_type t = if decide (x = $"d") then CONST_DOUBLE else CONST_FLOAT).
Proof.
  intros Ha Hx Hd. cbn zeta. destruct (suffix_tokens a x dot Ha Hx Hd) as [H1 H2]. split; [done|]. intros Hi.
  destruct (H2 Hi) as (t & s & E & H3 & H4 & H5). exists t, s. split_and!; try done.
  rewrite H5. repeat case_bool_decide; repeat case_decide; done.
Qed.
Print Assumptions C14_separate_suffix.
Example C14_numbers_ex : numeral ($"12") /\ shapes (tokenize ($"12.5f;")) =
  Ok [(Constant, CONST_FLOAT, $"12.5", false); (CNone, SEMICOLON, $";", false); (CNone, ENDOFFILE, [], false)].
Proof. split; [split; [done|repeat constructor]|by vm_compute]. Qed.

(** A string literal, wherever white space separates it from its surroundings, becomes one token with exactly its characters. *)
Theorem C15_literal w items1 cs w1 items2 :
  w = [] \/ blanks w -> Forall (fun lw => lex_ok (fst lw) /\ blanks (snd lw)) (items1 ++ (Literal cs, w1) :: items2) ->
  exists ts1 t ts2, raw_tokens (w ++ layout (items1 ++ (Literal cs, w1) :: items2)) = Ok (ts1 ++ t :: ts2 ++ [eof_token]) /\
    length ts1 = length items1 /\ length ts2 = length items2 /\ k_type t = CONST_LITERAL /\ k_text t = map snd cs.
Proof.
  intros Hw Hok. destruct (layout_tokens w _ Hw Hok) as (ts & H1 & H2 & _).
  apply Forall2_app_inv_l in H2 as (ts1 & ts2 & Hf1 & Hf2 & ->). apply Forall2_cons_inv_l in Hf2 as (t & ts3 & [Ht1 Ht2] & Hf2 & ->).
  exists ts1, t, ts3. rewrite H1, <- app_assoc. repeat split; try done; symmetry; by eapply Forall2_length.
Qed.
Print Assumptions C15_literal.
(** The usual way of writing a text: backslashes in front of quotation marks and backslashes. *)
Definition escaped (s : str) : list (bool * ascii) := map (fun c => (bool_decide (c = chr 34 \/ c = chr 92), c)) s.
Theorem C15_escaped_text s w : chr 0 ∉ s -> blanks w ->
  exists t, raw_tokens (source (Literal (escaped s)) ++ w) = Ok [t; eof_token] /\ k_type t = CONST_LITERAL /\ k_text t = s.
Proof.
  intros Hs Hw. destruct (C15_literal [] [] (escaped s) w []) as (ts1 & t & ts2 & H1 & H2 & H3 & H4 & H5); [by left|..].
  { constructor; [|done]. split; [|done]. cbn. intros e c Hin ->. unfold escaped in Hin. apply elem_of_list_fmap in Hin as (x & Hx & Hin).
    injection Hx as Hx ->. symmetry in Hx. apply bool_decide_eq_false in Hx. split; [naive_solver|]. split; [naive_solver|]. by intros ->. }
  destruct ts1, ts2; try done. exists t. cbn [app layout] in H1. rewrite app_nil_r in H1. split; [done|]. split; [done|].
  rewrite H5. unfold escaped. rewrite map_map. cbn. apply map_id.
Qed.
Print Assumptions C15_escaped_text.
Example C15_ex : exists l, raw_tokens (source (Literal (escaped [chr 97; chr 34; chr 92; chr 10])) ++ $" ") = Ok l /\ length l = 2%nat.
Proof. eexists. split; [vm_compute; reflexivity|done]. Qed.

(** A literal that is never closed is no error: it disappears, with everything behind it. *)
Theorem C15_open_literal_refuted w items cs :
  w = [] \/ blanks w -> Forall (fun lw => lex_ok (fst lw) /\ blanks (snd lw)) items -> lex_ok (Literal cs) ->
  exists ts, raw_tokens (w ++ layout items ++ removelast (source (Literal cs))) = Ok (ts ++ [eof_token]) /\
    raw_tokens (w ++ layout items) = Ok (ts ++ [eof_token]) /\ length ts = length items.
Proof.
  intros Hw Hok Hl. assert (exists prev ln cl, t_run t_init w = Ok (cst [] [] prev ln cl) /\ pclass prev = 0%nat) as (p & a & b & E & Hp).
  { destruct Hw as [->|Hw]; [by exists (chr 0), 1%N, 1%N|]. apply blanks_white in Hw as [Hw1 Hw2].
    edestruct (white_run w Hw2 Hw1 [] [] (chr 0) 1%N 1%N) as (p & a & b & E & Hp). eauto 6. }
  destruct (layout_run items Hok w [] p a b E Hp) as (ts & p2 & a2 & b2 & E2 & Hf & _).
  exists ts. rewrite app_nil_r in E2. split; [|split].
  - unfold raw_tokens. rewrite app_assoc, <- app_assoc, app_assoc, t_run_app, t_run_app, E2. cbn [rbind source].
    change (concat (map (fun ec : bool * ascii => if fst ec then [chr 92; snd ec] else [snd ec]) cs)) with (lit_src cs).
    rewrite app_comm_cons, removelast_last. cbn [t_run]. rewrite code_quote. cbn [rbind app].
    edestruct (string_run cs Hl (reverse ts) [chr 34]) as (p3 & a3 & b3 & ->); [done|]. cbn [rbind t_run]. rewrite string_step by done.
    change (bool_decide (chr 0 = chr 34)) with false. change (bool_decide (chr 0 = chr 92)) with false. change (bool_decide (chr 0 = chr 0)) with true.
    cbn [rbind t_toks]. by rewrite reverse_involutive.
  - unfold raw_tokens. rewrite t_run_app, E2. cbn [rbind t_run]. rewrite code_nul. cbn [rbind t_toks]. by rewrite reverse_involutive.
  - symmetry. by eapply Forall2_length.
Qed.
Print Assumptions C15_open_literal_refuted.
Example C15_open_literal_ex : shapes (tokenize ($"print( " ++ chr 34 :: $"a ); exit(); ")) = shapes (tokenize ($"print( ")).
Proof. by vm_compute. Qed.

(** ** C16: positions *)
(** In a layout of lexemes each token carries exactly the line and column of the character that ends it. *)
Theorem C16_positions_partial w items :
  w = [] \/ blanks w -> Forall (fun lw => lex_ok (fst lw) /\ blanks (snd lw)) items -> no_escaped_newline (w ++ layout items) ->
  exists ts, raw_tokens (w ++ layout items) = Ok (ts ++ [eof_token]) /\ placed w items ts.
Proof. intros Hw Hok Hn. destruct (layout_tokens w items Hw Hok) as (ts & H1 & _ & H3). eauto. Qed.
Print Assumptions C16_positions_partial.
(** In any text, each token carries the position of a delimiting character, and these characters are in the order of the tokens. *)
Theorem C16_every_token_partial text raw :
  no_escaped_newline text -> raw_tokens text = Ok (raw ++ [eof_token]) ->
  exists idx : list nat, StronglySorted le idx /\
    Forall2 (fun t i => (exists c, (text : list ascii) !! i = Some c /\ is_delim c = true) /\
                        (k_line t, k_col t) = position_after (take i text)) raw idx.
Proof. intros Hn H. destruct (raw_indexed text raw Hn H) as (idx & H1 & H2). eauto. Qed.
Print Assumptions C16_every_token_partial.
(** After all passes the positions never decrease from token to token (the last token is the end of file). *)
Theorem C16_monotone_partial text body e :
  no_escaped_newline text -> tokenize text = Ok (body ++ [e]) ->
  StronglySorted (fun t u => (k_line t < k_line u \/ k_line t = k_line u /\ k_col t <= k_col u)%N) body.
Proof.
  intros Hn H. pose proof (final_sorted text body e Hn H) as Hs. clear H.
  induction body as [|t body IH]; [constructor|]. cbn in Hs. apply StronglySorted_inv in Hs as [Hs Hf]. constructor; [by apply IH|].
  clear -Hf. induction body as [|u body IH]; [constructor|]. cbn in Hf. apply Forall_cons in Hf as [Hu Hf]. constructor; [exact Hu|by apply IH].
Qed.
Print Assumptions C16_monotone_partial.
(** The line is one plus the number of line ends before. *)
Theorem C16_line_counts (text : list ascii) : fst (position_after text) = (1 + newlines text)%N.
Proof.
  unfold position_after, newlines.
  assert (forall p, fst (fold_left advance text p) = (fst p + N.of_nat (length (filter (fun c => c = chr 10) text)))%N) as H; [|by rewrite H].
  induction text as [|c text IH]; intros p; cbn [fold_left]; [rewrite filter_nil; cbn; lia|]. rewrite IH. unfold advance.
  destruct (decide (c = chr 10)) as [->|Hc].
  - rewrite filter_cons_True by done. cbn [fst length]. change (bool_decide (chr 10 = chr 10)) with true. cbn [fst]. lia.
  - rewrite filter_cons_False by done. by rewrite (bool_decide_eq_false_2 _ Hc).
Qed.
Print Assumptions C16_line_counts.
Example C16_ex : exists l, tokenize ($"a" ++ chr 10 :: $" b ") = Ok l /\ map k_line l = [1; 2; 0]%N.
Proof. eexists. split; [vm_compute; reflexivity|done]. Qed.
Lemma no_escaped_of_none s : chr 92 ∉ s -> no_escaped_newline s.
Proof. intros H x y ->. apply H. set_solver. Qed.
Example C16_ex_hyp : no_escaped_newline ($"a" ++ chr 10 :: $" b ").
Proof. apply no_escaped_of_none. by apply (bool_decide_unpack _). Qed.
(** An escaped line end inside a string literal is not counted. *)
Theorem C16_escaped_newline_refuted :
  exists l t, tokenize (chr 34 :: chr 92 :: chr 10 :: chr 34 :: $" a ") = Ok l /\ t ∈ l /\ k_text t = $"a" /\ k_line t = 1%N.
Proof. eexists _, (Token CNone IDENTIFIER ($"a") 1 7 false). split; [vm_compute; reflexivity|]. split; [|done]. right. left. Qed.
Print Assumptions C16_escaped_newline_refuted.

(** ** C17: joining of operators *)
(** No two adjacent tokens of the result could still be joined. *)
Theorem C17_nothing_left_to_join text l x a b y :
  tokenize text = Ok l -> l = x ++ a :: b :: y -> (k_type a, k_type b) ∉ joined_assign ++ joined_operator.
Proof.
  intros H -> Hin. apply tokenize_chained, chained_elem in H as [H1 H2]. unfold unjoined in *.
  by destruct (joined_table _ _ Hin) as [?|?].
Qed.
Print Assumptions C17_nothing_left_to_join.
(** Joining neither loses nor adds nor reorders what was written. *)
Theorem C17_text_kept text raw :
  raw_tokens text = Ok raw ->
  concat (map written (merge_pass merge_operator [] (merge_pass merge_assign [] raw))) = concat (map k_text raw).
Proof. intros H. destruct (merged_texts raw (raw_text_ok text raw H)) as [_ E]. unfold merged in E. rewrite E. by rewrite (raw_written text raw H). Qed.
Print Assumptions C17_text_kept.
(** Tokens that take no part in joining are kept as they are, in order. *)
Theorem C17_others_kept raw :
  filter (fun t => k_type t ∉ joining) (merge_pass merge_operator [] (merge_pass merge_assign [] raw)) =
  filter (fun t => k_type t ∉ joining) raw.
Proof.
  assert (forall ty, existsb (ttype_eqb ty) joining = true -> ~ (ty ∉ joining)) as Hj.
  { intros ty H Hn. apply Hn. apply existsb_exists in H as (z & Hz & E). apply ttype_eqb_eq in E as ->. by apply elem_of_list_In. }
  rewrite (merge_pass_filter merge_operator (fun t => k_type t ∉ joining)).
  - change (reverse [] ++ merge_pass merge_assign [] raw) with (merge_pass merge_assign [] raw).
    rewrite (merge_pass_filter merge_assign (fun t => k_type t ∉ joining)); [done|..].
    + intros a b x E. pose proof (merge_assign_second _ _ _ E) as Eb. rewrite Eb in *. cbn in E.
      destruct (k_type a); try discriminate; split; by apply Hj.
    + intros a b c ty s ln cl E. pose proof (merge_assign_second _ _ _ E) as ->. cbn in E |- *.
      destruct a; try discriminate; injection E as <- <- <-; by apply Hj.
  - intros a b x E. unfold merge_operator in E.
    destruct (k_type a); try discriminate; destruct (k_type b); try discriminate; split; by apply Hj.
  - intros a b c ty s ln cl E. unfold merge_operator in E. cbn.
    destruct a; try discriminate; destruct b; try discriminate; injection E as <- <- <-; by apply Hj.
Qed.
Print Assumptions C17_others_kept.
Example C17_ex : exists l, tokenize ($"a += b ++ ; c == = d && e >> 2 ; ") = Ok l /\ length l = 14%nat.
Proof. eexists. split; [vm_compute; reflexivity|done]. Qed.
(** The complement assignment is never recognised: the tilde and the equals sign stay apart. *)
Theorem C17_tilde_assign_refuted : exists l, tokenize ($"a ~= b ") = Ok l /\ length l = 5%nat /\ (forall t, t ∈ l -> k_type t <> ASSIGN_BITCOMPLEMENT).
Proof. eexists. split; [vm_compute; reflexivity|]. split; [done|]. intros t Ht. repeat (apply elem_of_cons in Ht as [->|Ht]; [done|]). by apply elem_of_nil in Ht. Qed.
Print Assumptions C17_tilde_assign_refuted.
(** The text kept for a modulo assignment is that of a multiplication. *)
Theorem C17_modulo_text_refuted : exists l t, tokenize ($"a %= b ") = Ok l /\ t ∈ l /\ k_type t = ASSIGN_MODULO /\ k_text t = $"*=".
Proof. eexists _, (Token Assignment ASSIGN_MODULO ($"*=") 1 4 false). split; [vm_compute; reflexivity|]. split; [|done]. right. left. Qed.
Print Assumptions C17_modulo_text_refuted.
(** A number and a following word become one number token. *)
Theorem C17_number_word_refuted : exists l t, tokenize ($"1 foo ") = Ok l /\ l = [t; eof_token] /\ k_type t = CONST_INTEGER /\ k_text t = $"1foo".
Proof. eexists _, _. split; [vm_compute; reflexivity|]. by split. Qed.
Print Assumptions C17_number_word_refuted.
