(** Proofs about the tokenizer model: lexemes and positions (C14, C15, C16). *)
From Verif Require Import Base Base_Proofs Text_Model Text_Proofs Tok_Model Tok_Spec Tok_Proofs Tok_Proofs2.

(** ** Positions *)
Definition at_pos (s : tstate) (hist : str) : Prop := (t_line s, t_col s) = position_after hist.
Lemma position_snoc hist c : position_after (hist ++ [c]) = advance (position_after hist) c.
Proof. unfold position_after. by rewrite fold_left_app. Qed.
Lemma place_snoc hist c : place_after (hist ++ [c]) = next_place (place_after hist) c.
Proof. unfold place_after. by rewrite fold_left_app. Qed.
Lemma pos_step s p c s' : at_place s p -> (p = InEscape -> c <> chr 10) -> t_step s c = Ok s' ->
  (t_line s', t_col s') = advance (t_line s, t_col s) c.
Proof.
  destruct s as [toks tok esc mlc slc st prev ln cl].
  destruct p as [sl| | | |sr]; intros Hp Hne H; unfold at_place in Hp; cbn [t_esc t_mlc t_slc t_str t_prev t_tok] in Hp;
    destruct_and!; subst; unfold advance; cbn [t_line t_col fst snd].
  - destruct (ckind_of prev c) as [| -> | -> | | |c Hw|c Hd Hw H34 Ho|c Hd H0].
    + rewrite code_hash in H. by injection H as <-.
    + rewrite code_slash2 in H. destruct toks; [done|]. by injection H as <-.
    + rewrite code_slashstar in H. destruct toks; [done|]. by injection H as <-.
    + rewrite code_quote in H. by injection H as <-.
    + rewrite code_nul in H. by injection H as <-.
    + rewrite code_white in H by done. injection H as <-. by destruct (bool_decide (c = chr 10)).
    + rewrite code_delim in H by done. injection H as <-. rewrite bool_decide_eq_false_2; [done|]. intros ->. by vm_compute in Hw.
    + rewrite code_word in H by done. injection H as <-. rewrite bool_decide_eq_false_2; [done|]. intros ->. by vm_compute in Hd.
  - rewrite string_step in H by done. injection H as <-.
    case_bool_decide; [by subst|]. case_bool_decide; [by subst|]. case_bool_decide; [by subst|]. by case_bool_decide.
  - rewrite escape_step in H. injection H as <-. specialize (Hne eq_refl). by bfs.
  - rewrite line_step in H. injection H as <-. by case_bool_decide.
  - rewrite block_step in H. injection H as <-. destruct (bool_decide (prev = chr 42) && bool_decide (c = chr 47)) eqn:E.
    + apply andb_true_iff in E as [_ E]. apply bool_decide_eq_true in E. by subst.
    + by destruct (bool_decide (c = chr 10)).
Qed.
Lemma escape_hist hist : place_after hist = InEscape -> exists h, hist = h ++ [chr 92].
Proof.
  destruct hist as [|c hist _] using rev_ind; [done|]. rewrite place_snoc. intros H.
  assert (c = chr 92) as ->; [|eauto]. destruct (place_after hist); unfold next_place in H; repeat case_match; try done.
  by match goal with H : bool_decide (c = chr 92) = true |- _ => apply bool_decide_eq_true in H end.
Qed.
Lemma pos_run text : forall hist s s', no_escaped_newline (hist ++ text) -> at_place s (place_after hist) -> at_pos s hist ->
  t_run s text = Ok s' -> at_pos s' (hist ++ text).
Proof.
  induction text as [|c text IH]; intros hist s s' Hn Hp Ha H; cbn in H; [injection H as <-; by rewrite app_nil_r|].
  destruct (t_step s c) as [s1| | |] eqn:E; try done. cbn in H.
  rewrite (cons_middle c hist text) in Hn |- *. rewrite app_assoc in *. eapply IH; [done| | |exact H].
  - rewrite place_snoc. by eapply place_step.
  - unfold at_pos in *. rewrite position_snoc, <- Ha. eapply pos_step; [exact Hp| |exact E].
    intros He ->. apply escape_hist in He as [h ->]. apply (Hn h text). by rewrite <- !app_assoc.
Qed.
Lemma pos_init text s : no_escaped_newline text -> t_run t_init text = Ok s -> at_pos s text.
Proof. intros Hn H. by apply (pos_run text [] t_init s). Qed.

(** ** Words *)
Lemma delim_iff c : is_delim c = true <-> c ∈ ($"#.,;:=()[]{}!?<>+-*/%&|~' " ++ [chr 34; chr 9; chr 10; chr 13]).
Proof.
  pose proof (char_forall (fun c => Bool.eqb (is_delim c) (bool_decide (c ∈ ($"#.,;:=()[]{}!?<>+-*/%&|~' " ++ [chr 34; chr 9; chr 10; chr 13])))) ltac:(by vm_compute) c) as F.
  cbn beta in F. apply Bool.eqb_prop in F. rewrite F. apply bool_decide_eq_true.
Qed.
Lemma is_word_spec w : is_word w <-> w <> [] /\ Forall (fun c => is_delim c = false /\ c <> chr 0) w.
Proof.
  unfold is_word. rewrite Forall_forall. split; intros [H1 H2]; (split; [done|]); intros c Hc; apply H2 in Hc as [Ha Hb]; (split; [|try done]).
  - apply not_true_is_false. intros E. by apply delim_iff in E.
  - done.
  - intros E. apply delim_iff in E. congruence.
Qed.
Lemma word_run w : Forall (fun c => is_delim c = false /\ c <> chr 0) w -> forall toks tok prev ln cl, exists prev' cl',
  t_run (cst toks tok prev ln cl) w = Ok (cst toks (tok ++ w) prev' ln cl').
Proof.
  induction w as [|c w IH]; intros H toks tok prev ln cl; [cbn; rewrite app_nil_r; eauto|].
  apply Forall_cons in H as [[H1 H2] H]. cbn [t_run]. rewrite code_word by done. cbn [rbind].
  destruct (IH H toks (tok ++ [c]) c ln (cl + 1)%N) as (p & k & ->). rewrite <- app_assoc. eauto.
Qed.
Definition lit_src (cs : list (bool * ascii)) : str := concat (map (fun ec : bool * ascii => if fst ec then [chr 92; snd ec] else [snd ec]) cs).
Lemma string_run cs : (forall e c, (e, c) ∈ cs -> e = false -> c <> chr 34 /\ c <> chr 92 /\ c <> chr 0) ->
  forall toks tok prev ln cl, tok <> [] -> exists prev' ln' cl',
  t_run (TState toks tok false false false true prev ln cl) (lit_src cs) =
  Ok (TState toks (tok ++ map snd cs) false false false true prev' ln' cl').
Proof.
  unfold lit_src. induction cs as [|[e c] cs IH]; intros H toks tok prev ln cl Ht; [cbn; rewrite app_nil_r; eauto|].
  assert (forall e c, (e, c) ∈ cs -> e = false -> c <> chr 34 /\ c <> chr 92 /\ c <> chr 0) as H' by (intros; eapply H; [by right|done]).
  specialize (IH H'). cbn [map concat fst snd]. rewrite t_run_app. 
  assert (tok ++ [c] <> []) as Ht' by (by destruct tok).
  destruct e; cbn [t_run].
  - rewrite string_step by done. change (bool_decide (chr 92 = chr 34)) with false. change (bool_decide (chr 92 = chr 92)) with true. cbn [rbind].
    rewrite escape_step. cbn [rbind]. edestruct (IH toks (tok ++ [c])) as (p & l & k & ->); [done|]. rewrite <- app_assoc. eauto.
  - destruct (H false c) as (H1 & H2 & H3); [left|done|]. rewrite string_step by done. bfs.
    destruct (bool_decide (c = chr 10)); cbn [rbind]; edestruct (IH toks (tok ++ [c])) as (p & l & k & ->); try done; rewrite <- app_assoc; eauto.
Qed.
(** The text handed to addToken for a lexeme. *)
Definition spelling (l : lexeme) : str :=
  match l with Word w => w | Punct c => [c] | Literal cs => chr 34 :: map snd cs ++ [chr 34] end.
Lemma punct_facts c : c ∈ ($".,;:=()[]{}!?<>+-*/%&|~'") -> is_delim c = true /\ is_white c = false /\ c <> chr 34 /\ c <> chr 35.
Proof.
  intros H. pose proof (char_forall (fun c => negb (bool_decide (c ∈ ($".,;:=()[]{}!?<>+-*/%&|~'"))) ||
     (is_delim c && negb (is_white c) && negb (bool_decide (c = chr 34)) && negb (bool_decide (c = chr 35)))) ltac:(by vm_compute) c) as F.
  cbn beta in F. rewrite (bool_decide_eq_true_2 _ H) in F. cbn [negb orb] in F.
  apply andb_true_iff in F as [F F4]. apply andb_true_iff in F as [F F3]. apply andb_true_iff in F as [F1 F2].
  apply negb_true_iff in F2, F3, F4. apply bool_decide_eq_false in F3, F4. done.
Qed.
Lemma pclass_0 c : pclass c = 0%nat -> c <> chr 47 /\ c <> chr 42.
Proof. unfold pclass. repeat case_bool_decide; done. Qed.
Lemma lexeme_run l w toks prev ln cl : lex_ok l -> blanks w -> pclass prev = 0%nat ->
  exists sb prev' ln' cl',
    t_run (cst toks [] prev ln cl) (body l) = Ok sb /\
    t_run (cst toks [] prev ln cl) (source l ++ w) =
      Ok (cst (push_opt (make_token (spelling l) (t_line sb) (t_col sb)) toks) [] prev' ln' cl') /\ pclass prev' = 0%nat.
Proof.
  intros Hl Hw Hp. apply blanks_white in Hw as [Hw1 Hw2]. apply pclass_0 in Hp as [Hp1 Hp2].
  destruct l as [x|c|cs]; cbn [lex_ok body source spelling] in *.
  - apply is_word_spec in Hl as [Hne Hf]. rewrite t_run_app.
    destruct (word_run x Hf toks [] prev ln cl) as (p & k & ->). cbn [rbind app].
    edestruct (white_run w Hw2 Hw1) as (p2 & l2 & c2 & -> & Hp3). eexists _, _, _, _. split; [done|].
    split; [|done]. cbn [t_line t_col]. by destruct x.
  - apply punct_facts in Hl as (Hd & Hwh & H34 & H35). cbn [removelast app t_run].
    assert (opens prev c = false) as Ho. { unfold opens. bfs. done. }
    rewrite code_delim by done. cbn [rbind flush].
    edestruct (white_run w Hw2 Hw1) as (p2 & l2 & c2 & -> & Hp3). eexists _, _, _, _. split; [done|].
    split; [|done]. done.
  - change (concat (map (fun ec : bool * ascii => if fst ec then [chr 92; snd ec] else [snd ec]) cs)) with (lit_src cs).
    rewrite app_comm_cons, removelast_last. cbn [app t_run]. rewrite code_quote. cbn [rbind app].
    edestruct (string_run cs Hl toks [chr 34]) as (p & a & b & E); [done|]. rewrite E. eexists _.
    rewrite <- app_assoc, t_run_app, E. cbn [rbind app t_run]. rewrite string_step by done.
    change (bool_decide (chr 34 = chr 34)) with true. cbn [rbind].
    edestruct (white_run w Hw2 Hw1) as (p2 & l2 & c2 & -> & Hp3). eexists _, _, _. split; [done|].
    split; [|done]. cbn [flush t_line t_col]. by rewrite <- app_comm_cons.
Qed.

(** ** The type of a spelling *)
Lemma in_words_iff w l : in_words w l = true <-> w ∈ l.
Proof.
  unfold in_words. rewrite existsb_exists. split.
  - intros (x & Hx & E). apply str_eqb_eq in E. subst. by apply elem_of_list_In.
  - intros H. exists w. split; [by apply elem_of_list_In|apply str_eqb_refl].
Qed.
Lemma in_words_false w l : in_words w l = false <-> w ∉ l.
Proof. rewrite <- in_words_iff. by destruct (in_words w l). Qed.
Definition all_digits (w : str) : Prop := Forall (fun c => is_digit c = true) w.
Lemma forallb_digits w : forallb is_digit w = true <-> all_digits w.
Proof. unfold all_digits. rewrite forallb_forall, Forall_forall. by setoid_rewrite elem_of_list_In. Qed.
Lemma take_snoc (n : str) x : take (length (n ++ [x]) - 1) (n ++ [x]) = n.
Proof. rewrite app_length, Nat.add_sub. apply take_app. Qed.
Lemma digits_then_iff w c : digits_then w c = true <-> exists n, w = n ++ [c] /\ n <> [] /\ all_digits n.
Proof.
  unfold digits_then. rewrite !andb_true_iff, Nat.ltb_lt, forallb_digits, bool_decide_eq_true. split.
  - intros [[H1 H2] H3]. destruct w as [|x n _] using rev_ind; [done|]. rewrite last_snoc in H3. injection H3 as ->.
    rewrite take_snoc in H2. exists n. repeat split; try done. intros ->. cbn in H1. lia.
  - intros (n & -> & Hn & Hd). rewrite last_snoc, take_snoc. repeat split; try done. rewrite app_length. destruct n; [done|]. cbn. lia.
Qed.
Lemma digits_then_false w c : digits_then w c = false -> forall n, all_digits n -> n <> [] -> w <> n ++ [c].
Proof. intros H n Hd Hn ->. assert (digits_then (n ++ [c]) c = true) as E by (apply digits_then_iff; eauto). congruence. Qed.
Lemma drop_last_snoc n c : drop_last (n ++ [c]) = n.
Proof. apply take_snoc. Qed.
Lemma is_integer_iff w : is_integer w = true <-> w <> [] /\ all_digits w.
Proof. unfold is_integer. rewrite andb_true_iff, negb_true_iff, bool_decide_eq_false, forallb_digits. done. Qed.
Lemma word_char_none c : is_delim c = false -> classify_char c = None.
Proof.
  intros H. pose proof (char_forall (fun c => is_delim c || bool_decide (classify_char c = None)) ltac:(by vm_compute) c) as F.
  cbn beta in F. rewrite H in F. by apply bool_decide_eq_true in F.
Qed.
Lemma make_word w ln cl : is_word w ->
  make_token w ln cl = let '(cat, ty, txt, opt) := classify_word w in Some (Token cat ty txt ln cl opt).
Proof.
  intros H. apply is_word_spec in H as [Hne Hf]. unfold make_token. destruct w as [|c w]; [done|].
  apply Forall_cons in Hf as [[Hc _] _]. by rewrite word_char_none.
Qed.
Lemma word_not_in w x c : is_word w -> c ∈ x -> is_delim c = true -> w <> x.
Proof. intros H Hc Hd ->. apply is_word_spec in H as [_ H]. rewrite Forall_forall in H. apply H in Hc as [? _]. congruence. Qed.
Lemma word_not_literal w : is_word w -> is_literal w = false.
Proof.
  intros H. apply is_word_spec in H as [Hne H]. unfold is_literal. destruct w as [|c w]; [done|].
  apply Forall_cons in H as [[Hc _] _]. rewrite (bool_decide_eq_false_2 (head _ = _)); [by rewrite andb_false_r|].
  cbn. intros E. injection E as ->. done.
Qed.
Lemma classify_word_spelled w : is_word w -> let '(_, ty, txt, _) := classify_word w in spelled w ty txt.
Proof.
  intros Hw. unfold classify_word. rewrite (word_not_literal w Hw).
  destruct (str_eqb w ($"is")) eqn:E1; [apply str_eqb_eq in E1 as ->; constructor|].
  destruct (str_eqb w ($"..")) eqn:E2; [apply str_eqb_eq in E2; by destruct (word_not_in w ($"..") (chr 46) Hw); [left|..]|].
  destruct (in_words w access_modes) eqn:E3; [apply in_words_iff in E3; by constructor|].
  destruct (str_eqb w ($"false") || str_eqb w ($"true")) eqn:E4.
  { apply orb_true_iff in E4. constructor. rewrite !str_eqb_eq in E4. set_solver. }
  destruct (digits_then w (chr 100)) eqn:E5; [apply digits_then_iff in E5 as (n & -> & ? & ?); rewrite drop_last_snoc; by constructor|].
  destruct (digits_then w (chr 102)) eqn:E6; [apply digits_then_iff in E6 as (n & -> & ? & ?); rewrite drop_last_snoc; by constructor|].
  destruct (digits_then w (chr 105)) eqn:E7; [apply digits_then_iff in E7 as (n & -> & ? & ?); rewrite drop_last_snoc; by constructor|].
  destruct (is_integer w) eqn:E8; [apply is_integer_iff in E8 as [? ?]; by constructor|].
  destruct (in_words w keywords) eqn:E9; [apply in_words_iff in E9; by constructor|].
  destruct (in_words w language_features) eqn:E10; [apply in_words_iff in E10; by constructor|].
  destruct (in_words w memory_layouts) eqn:E11; [apply in_words_iff in E11; by constructor|].
  destruct (in_words w modifiers) eqn:E12; [apply in_words_iff in E12; by constructor|].
  destruct (in_words w mutabilities) eqn:E13; [apply in_words_iff in E13; by constructor|].
  destruct (in_words w reserved_words) eqn:E14.
  { apply in_words_iff in E14. apply sp_reserved. change reserved_words with (reserved_list ++ [$"."]) in E14.
    apply elem_of_app in E14 as [E14|E14]; [done|]. apply elem_of_list_singleton in E14. subst w.
    exfalso. by apply (word_not_in ($".") ($".") (chr 46) Hw); [left|..]. }
  destruct (in_words w visibilities) eqn:E15; [apply in_words_iff in E15; by constructor|].
  apply sp_identifier; [done| | |].
  - intros Hd. assert (is_integer w = true) by (apply is_integer_iff; split; [apply Hw|done]). congruence.
  - intros n x Hd Hn Hx. repeat (apply elem_of_cons in Hx as [->|Hx]; [by eapply digits_then_false|]). by apply elem_of_nil in Hx.
  - apply in_words_false in E3, E9, E10, E11, E12, E13, E14, E15. apply orb_false_iff in E4 as [E4 E4'].
    assert (w <> $"is" /\ w <> $"false" /\ w <> $"true") as (? & ? & ?).
    { repeat split; intros ->; by rewrite str_eqb_refl in *. }
    unfold access_modes, language_features, memory_layouts, modifiers, mutabilities, visibilities in *. 
    change reserved_words with (reserved_list ++ [$"."]) in E14. rewrite elem_of_app in E14.
    rewrite !elem_of_app. intros [Hi|[Hi|Hi]]; [done|by apply E14; left|].
    repeat (apply elem_of_cons in Hi as [Hi|Hi]; [subst w; try done; match goal with E : _ ∉ ?l |- _ => by destruct E; apply in_words_iff end|]). by apply elem_of_nil in Hi.
Qed.
