(** Proofs about the tokenizer model: layouts of lexemes, uniqueness of spellings, ordering of positions. *)
From Verif Require Import Base Base_Proofs Text_Model Text_Proofs Tok_Model Tok_Spec Tok_Proofs Tok_Proofs2 Tok_Proofs4.

Lemma punct_spelled c ln cl : c ∈ ($".,;:=()[]{}!?<>+-*/%&|~'") ->
  exists t, make_token [c] ln cl = Some t /\ spelled [c] (k_type t) (k_text t).
Proof.
  intros H. unfold s2l in H. cbn in H.
  repeat (apply elem_of_cons in H as [->|H]; [eexists; split; [reflexivity|]; apply sp_punct; cbn [k_type k_text]; apply (bool_decide_unpack _); vm_compute; exact I|]).
  by apply elem_of_nil in H.
Qed.
Lemma literal_token x ln cl : make_token (chr 34 :: x ++ [chr 34]) ln cl = Some (Token Constant CONST_LITERAL x ln cl false).
Proof.
  set (w := chr 34 :: x ++ [chr 34]). unfold make_token. cbn [w]. change (classify_char (chr 34)) with (@None (option (category * ttype))). fold w.
  assert (forall l, forallb (fun v => match v with c :: _ => negb (bool_decide (c = chr 34)) | [] => true end) l = true -> in_words w l = false) as Hin.
  { intros l Hl. apply in_words_false. intros Hw. rewrite forallb_forall in Hl. apply elem_of_list_In in Hw. by apply Hl in Hw. }
  unfold classify_word. 
  assert (str_eqb w ($"is") = false) as -> by (apply bool_decide_eq_false_2; done).
  assert (str_eqb w ($"..") = false) as -> by (apply bool_decide_eq_false_2; done).
  assert (str_eqb w ($"false") = false) as -> by (apply bool_decide_eq_false_2; done).
  assert (str_eqb w ($"true") = false) as -> by (apply bool_decide_eq_false_2; done).
  rewrite (Hin access_modes) by done. cbn [orb].
  assert (forall c, digits_then w c = false) as Hd.
  { intros c. destruct (digits_then w c) eqn:E; [|done]. apply digits_then_iff in E as (n & E & Hn & Hd). destruct n as [|y n]; [done|].
    injection E as <- E. apply Forall_cons in Hd as [Hd _]. done. }
  rewrite !Hd. assert (is_integer w = false) as ->.
  { destruct (is_integer w) eqn:E; [|done]. apply is_integer_iff in E as [_ E]. apply Forall_cons in E as [E _]. done. }
  rewrite (Hin keywords), (Hin language_features) by done.
  assert (is_literal w = true) as ->.
  { unfold is_literal, w. rewrite app_comm_cons, last_snoc. cbn [length app head]. rewrite app_length. cbn [length].
    replace (1 <? S (length x + 1))%nat with true by (symmetry; apply Nat.ltb_lt; lia). done. }
  unfold w. cbn [length drop]. rewrite app_length. cbn [length]. replace (S (length x + 1) - 2)%nat with (length x) by lia.
  by rewrite drop_0, take_app.
Qed.
Lemma lexeme_token l ln cl : lex_ok l -> exists t, make_token (spelling l) ln cl = Some t /\ lexed l (k_type t) (k_text t) /\ k_line t = ln /\ k_col t = cl.
Proof.
  intros Hl. destruct l as [w|c|cs]; cbn [spelling lexed lex_ok] in *.
  - rewrite make_word by done. pose proof (classify_word_spelled w Hl) as H. destruct (classify_word w) as [[[ct ty] txt] o]. eauto 6.
  - destruct (punct_spelled c ln cl Hl) as (t & Ht & Hs). exists t. repeat split; try done.
    all: unfold make_token in Ht; destruct (classify_char c) as [[[]|]|]; try done; [by injection Ht as <-|destruct (classify_word [c]) as [[[]]]; by injection Ht as <-].
  - rewrite literal_token. eexists. split; [done|]. done.
Qed.

Definition items_ok (items : list (lexeme * str)) : Prop := Forall (fun lw => lex_ok (fst lw) /\ blanks (snd lw)) items.
Lemma layout_run items : items_ok items -> forall before toks prev ln cl,
  t_run t_init before = Ok (cst toks [] prev ln cl) -> pclass prev = 0%nat ->
  exists ts prev' ln' cl',
    t_run t_init (before ++ layout items) = Ok (cst (reverse ts ++ toks) [] prev' ln' cl') /\
    Forall2 (fun lw t => lexed (fst lw) (k_type t) (k_text t)) items ts /\
    (no_escaped_newline (before ++ layout items) -> placed before items ts).
Proof.
  induction items as [|[l w] items IH]; intros Hok before toks prev ln cl Hb Hp.
  - exists [], prev, ln, cl. cbn [layout]. rewrite app_nil_r. repeat split; [done|constructor].
  - apply Forall_cons in Hok as [[Hl Hw] Hok]. cbn [fst snd] in *.
    destruct (lexeme_run l w toks prev ln cl Hl Hw Hp) as (sb & p & a & b & E1 & E2 & Hp').
    destruct (lexeme_token l (t_line sb) (t_col sb) Hl) as (t & Et & Hlex & Hln & Hcl). rewrite Et in E2. cbn [push_opt] in E2.
    destruct (IH Hok (before ++ source l ++ w) (t :: toks) p a b) as (ts & p2 & a2 & b2 & E3 & Hf & Hpl); [|done|].
    { by rewrite t_run_app, Hb. }
    exists (t :: ts), p2, a2, b2. cbn [layout]. rewrite reverse_cons, <- !app_assoc in *. split; [done|]. split; [by constructor|].
    intros Hn. cbn [placed]. split; [|by apply Hpl].
    rewrite Hln, Hcl. apply pos_init.
    + intros x y E. assert (exists z, source l = body l ++ z) as [z Hz].
      { destruct l as [v|c|cs]; cbn [body]; [exists []; by rewrite app_nil_r|exists [c]; done|].
        exists [chr 34]. cbn [source]. by rewrite app_comm_cons, removelast_last. }
      apply (Hn x (y ++ z ++ w ++ layout items)). rewrite Hz, <- !app_assoc. rewrite app_assoc, E. by rewrite <- !app_assoc.
    + by rewrite t_run_app, Hb.
Qed.
Lemma layout_tokens w items : w = [] \/ blanks w -> items_ok items ->
  exists ts, raw_tokens (w ++ layout items) = Ok (ts ++ [eof_token]) /\
    Forall2 (fun lw t => lexed (fst lw) (k_type t) (k_text t)) items ts /\
    (no_escaped_newline (w ++ layout items) -> placed w items ts).
Proof.
  intros Hw Hok. assert (exists prev ln cl, t_run t_init w = Ok (cst [] [] prev ln cl) /\ pclass prev = 0%nat) as (p & a & b & E & Hp).
  { destruct Hw as [->|Hw]; [by exists (chr 0), 1%N, 1%N|]. apply blanks_white in Hw as [Hw1 Hw2].
    edestruct (white_run w Hw2 Hw1 [] [] (chr 0) 1%N 1%N) as (p & a & b & E & Hp). eauto 6. }
  destruct (layout_run items Hok w [] p a b E Hp) as (ts & p2 & a2 & b2 & E2 & Hf & Hpl).
  exists ts. split; [|done]. unfold raw_tokens. rewrite t_run_app, E2. cbn [rbind t_run]. rewrite code_nul. cbn [rbind t_toks].
  by rewrite app_nil_r, reverse_involutive.
Qed.

(** ** A spelling has one type *)
Lemma word_digit c : is_digit c = true -> is_delim c = false /\ c <> chr 0.
Proof.
  intros H. pose proof (char_forall (fun c => negb (is_digit c) || (negb (is_delim c) && negb (bool_decide (c = chr 0)))) ltac:(by vm_compute) c) as F.
  cbn beta in F. rewrite H in F. cbn [negb orb] in F. apply andb_true_iff in F as [F1 F2]. apply negb_true_iff in F1, F2. by apply bool_decide_eq_false in F2.
Qed.
Definition tok_of (w : str) : option (ttype * str) := option_map (fun t => (k_type t, k_text t)) (make_token w 0 0).
Lemma digit_in_words c n l : is_digit c = true ->
  forallb (fun v => match v with x :: _ => negb (is_digit x) | [] => true end) l = true -> in_words (c :: n) l = false.
Proof.
  intros Hc Hl. apply in_words_false. intros Hw. rewrite forallb_forall in Hl. apply elem_of_list_In in Hw. apply Hl in Hw. by rewrite Hc in Hw.
Qed.
Lemma digits_last (n m : str) c d : n ++ [c] = m ++ [d] -> n = m /\ c = d.
Proof. apply app_inj_tail. Qed.
Lemma digit_neq c n w : is_digit c = true -> match w with x :: _ => negb (is_digit x) | [] => true end = true -> str_eqb (c :: n) w = false.
Proof. intros Hc Hw. apply bool_decide_eq_false_2. intros <-. by rewrite Hc in Hw. Qed.
Lemma digits_then_no n c d : all_digits n -> n <> [] -> c <> d -> digits_then (n ++ [c]) d = false.
Proof. intros Hd Hn Hcd. destruct (digits_then (n ++ [c]) d) eqn:E; [|done]. apply digits_then_iff in E as (m & E & _). by apply digits_last in E as [_ ?]. Qed.
Lemma digits_then_int n d : all_digits n -> is_digit d = false -> digits_then n d = false.
Proof.
  intros Hd Hn. destruct (digits_then n d) eqn:E; [|done]. apply digits_then_iff in E as (m & -> & _). apply Forall_app in Hd as [_ Hd].
  apply Forall_cons in Hd as [Hd _]. congruence.
Qed.
Lemma tok_digits n x : all_digits n -> n <> [] -> x ∈ [[]; $"i"; $"d"; $"f"] ->
  tok_of (n ++ x) = Some (if bool_decide (x = $"d") then CONST_DOUBLE else if bool_decide (x = $"f") then CONST_FLOAT else CONST_INTEGER, n).
Proof.
  intros Hd Hn Hx. destruct n as [|c n]; [done|]. pose proof Hd as Hd'. apply Forall_cons in Hd' as [Hc _].
  unfold tok_of, make_token. cbn [app]. rewrite word_char_none by (by apply word_digit). unfold classify_word.
  rewrite !digit_neq, !digit_in_words by done. cbn [orb]. rewrite app_comm_cons.
  repeat (apply elem_of_cons in Hx as [->|Hx]); [..|by apply elem_of_nil in Hx].
  - rewrite app_nil_r, !digits_then_int by done. replace (is_integer (c :: n)) with true by (symmetry; by apply is_integer_iff). done.
  - change ($"i") with [chr 105]. rewrite !(digits_then_no _ (chr 105)) by done.
    replace (digits_then ((c :: n) ++ [chr 105]) (chr 105)) with true by (symmetry; apply digits_then_iff; eauto).
    by rewrite drop_last_snoc.
  - change ($"d") with [chr 100]. replace (digits_then ((c :: n) ++ [chr 100]) (chr 100)) with true by (symmetry; apply digits_then_iff; eauto).
    by rewrite drop_last_snoc.
  - change ($"f") with [chr 102]. rewrite !(digits_then_no _ (chr 102)) by done.
    replace (digits_then ((c :: n) ++ [chr 102]) (chr 102)) with true by (symmetry; apply digits_then_iff; eauto).
    by rewrite drop_last_snoc.
Qed.
Lemma tok_identifier w : is_word w -> ~ all_digits w ->
  (forall n x, all_digits n -> n <> [] -> x ∈ [chr 100; chr 102; chr 105] -> w <> n ++ [x]) ->
  (forall l, l ∈ [keywords; reserved_list; visibilities; mutabilities; modifiers; memory_layouts; language_features; access_modes; [$"true"; $"false"; $"is"]] -> w ∉ l) ->
  tok_of w = Some (IDENTIFIER, w).
Proof.
  intros Hw H1 H2 H3. unfold tok_of. rewrite make_word by done. unfold classify_word. rewrite (word_not_literal w Hw).
  assert (forall c, c ∈ [chr 100; chr 102; chr 105] -> digits_then w c = false) as Hd.
  { intros c Hc. destruct (digits_then w c) eqn:E; [|done]. apply digits_then_iff in E as (n & -> & Hn & Ha). by destruct (H2 n c). }
  rewrite !Hd by set_solver. assert (is_integer w = false) as ->.
  { destruct (is_integer w) eqn:E; [|done]. by apply is_integer_iff in E as [_ ?]. }
  assert (forall l, l ∈ [keywords; reserved_list; visibilities; mutabilities; modifiers; memory_layouts; language_features; access_modes; [$"true"; $"false"; $"is"]] -> in_words w l = false) as Hin.
  { intros l Hl. apply in_words_false. by apply H3. }
  assert (w ∉ [$"true"; $"false"; $"is"]) as Ho by (apply H3; set_solver).
  assert (str_eqb w ($"is") = false) as -> by (apply bool_decide_eq_false_2; set_solver).
  assert (str_eqb w ($"..") = false) as -> by (apply bool_decide_eq_false_2; apply (word_not_in w _ (chr 46) Hw); [left|done]).
  assert (str_eqb w ($"false") = false) as -> by (apply bool_decide_eq_false_2; set_solver).
  assert (str_eqb w ($"true") = false) as -> by (apply bool_decide_eq_false_2; set_solver).
  assert (in_words w reserved_words = false) as Hres.
  { apply in_words_false. change reserved_words with (reserved_list ++ [$"."]). rewrite elem_of_app. intros [Hi|Hi].
    - revert Hi. apply in_words_false, Hin. right. left.
    - apply elem_of_list_singleton in Hi. revert Hi. apply (word_not_in w _ (chr 46) Hw); [left|done]. }
  rewrite Hres, (Hin access_modes), (Hin keywords), (Hin language_features), (Hin memory_layouts), (Hin modifiers), (Hin mutabilities), (Hin visibilities)
    by (repeat first [by left|right]). done.
Qed.
Ltac enum H := unfold keyword_list, reserved_list in H;
  repeat (apply elem_of_cons in H as [->|H]; [try (by vm_compute); try done|]); try (by apply elem_of_nil in H).
Lemma spelled_tok w ty txt : spelled w ty txt -> tok_of w = Some (ty, txt).
Proof.
  intros H. destruct H as [w H|w H|w H|w H|w H|w H|w H|w H|w H| |w Hn H|w Hn H|w Hn H|w Hn H|w Hw H1 H2 H3|c ty H].
  1-9: try (by enum H).
  - done.
  - pose proof (tok_digits w [] H Hn) as E. rewrite app_nil_r in E. by rewrite E by set_solver.
  - by rewrite (tok_digits w ($"i") H Hn) by set_solver.
  - by rewrite (tok_digits w ($"d") H Hn) by set_solver.
  - by rewrite (tok_digits w ($"f") H Hn) by set_solver.
  - apply tok_identifier; try done. intros l Hl Hin. apply H3. rewrite !elem_of_app.
    unfold visibilities, mutabilities, modifiers, memory_layouts, language_features, access_modes in Hl.
    repeat (apply elem_of_cons in Hl as [->|Hl]); [..|by apply elem_of_nil in Hl]; [by left|right; by left|right; right..];
    repeat (apply elem_of_cons in Hin as [->|Hin]; [apply in_words_iff; by vm_compute|]); by apply elem_of_nil in Hin.
  - repeat (apply elem_of_cons in H as [H|H]; [injection H as -> ->; by vm_compute|]). by apply elem_of_nil in H.
Qed.
Lemma spelled_fun w ty txt ty' txt' : spelled w ty txt -> spelled w ty' txt' -> ty = ty' /\ txt = txt'.
Proof. intros H1 H2. apply spelled_tok in H1, H2. rewrite H1 in H2. by injection H2 as -> ->. Qed.
