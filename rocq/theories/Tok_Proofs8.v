(** Lexemes that touch, and number literals (C14). *)
From Verif Require Import Base Base_Proofs Text_Model Text_Proofs Tok_Model Tok_Spec Tok_Proofs Tok_Proofs2 Tok_Proofs3 Tok_Proofs4 Tok_Proofs5.

Lemma word_run' w : w <> [] -> Forall (fun c => is_delim c = false /\ c <> chr 0) w -> forall toks tok prev ln cl, exists prev' cl',
  t_run (cst toks tok prev ln cl) w = Ok (cst toks (tok ++ w) prev' ln cl') /\ pclass prev' = 0%nat.
Proof.
  intros Hn H toks tok prev ln cl. destruct w as [|c w _] using rev_ind; [done|]. apply Forall_app in H as [H Hc].
  apply Forall_cons in Hc as [[Hc H0] _]. destruct (word_run w H toks tok prev ln cl) as (p & k & E).
  rewrite t_run_app, E. cbn [rbind t_run]. rewrite code_word by done. cbn [rbind]. rewrite <- app_assoc. eexists _, _. split; [done|].
  unfold pclass. rewrite !bool_decide_eq_false_2; [done|..]; intros ->; by vm_compute in Hc.
Qed.

(** No comment starts between the last character and the next lexeme. *)
Definition no_open (prev : ascii) (items : list (lexeme * str)) : Prop :=
  match items with (Punct d, _) :: _ => ~ (prev = chr 47 /\ (d = chr 47 \/ d = chr 42)) | _ => True end.
Lemma no_open_0 prev items : pclass prev = 0%nat -> no_open prev items.
Proof. intros H. apply pclass_0 in H as [H _]. destruct items as [|[[]]]; try done. intros [? _]. done. Qed.
Definition awaits (tok : str) (items : list (lexeme * str)) : Prop :=
  tok = [] \/ exists d w items', items = (Punct d, w) :: items'.

Lemma tight_run items : forall toks tok prev ln cl, tight items -> awaits tok items -> no_open prev items ->
  exists ts prev' ln' cl',
    t_run (cst toks tok prev ln cl) (layout items) = Ok (cst (reverse ts ++ flush tok ln cl toks) [] prev' ln' cl') /\
    Forall2 (fun lw t => lexed (fst lw) (k_type t) (k_text t)) items ts.
Proof.
  induction items as [|[l w] items IH]; intros toks tok prev ln cl Ht Ha Ho.
  { destruct Ha as [->|(d & w & i & ?)]; [|done]. exists []. eexists _, _, _. split; [done|constructor]. }
  cbn [tight] in Ht. destruct Ht as (Hl & Hw & Ht). cbn [layout].
  destruct l as [v|c|cs].
  - destruct Ha as [->|(d & w' & i & ?)]; [|done]. cbn [source].
    pose proof (proj1 (is_word_spec v) Hl) as [Hv1 Hv2].
    destruct (word_run' v Hv1 Hv2 toks [] prev ln cl) as (p1 & c1 & E1 & Hp1). cbn [app] in E1.
    rewrite t_run_app, E1. cbn [rbind].
    destruct (lexeme_token (Word v) ln c1 Hl) as (t & Em & Hlx & _). cbn [spelling] in Em.
    assert (Hfl : flush v ln c1 toks = t :: toks). { unfold flush. rewrite Em. by destruct v. }
    destruct Hw as [Hw|[-> Hm]].
    + apply blanks_white in Hw as [Hw1 Hw2]. destruct (white_run w Hw2 Hw1 toks v p1 ln c1) as (p2 & l2 & c2 & E2 & Hp2).
      rewrite t_run_app, E2. cbn [rbind]. rewrite Hfl.
      destruct (IH (t :: toks) [] p2 l2 c2 Ht) as (ts & p3 & l3 & c3 & E3 & Hf); [by left|by apply no_open_0|].
      exists (t :: ts), p3, l3, c3. rewrite E3, reverse_cons, <- app_assoc. split; [done|]. by constructor.
    + cbn [app]. destruct items as [|[l' w'] items']; [done|]. destruct l' as [?|d|?]; try done.
      destruct (IH toks v p1 ln c1 Ht) as (ts & p3 & l3 & c3 & E3 & Hf); [right; eauto|by apply no_open_0|].
      exists (t :: ts), p3, l3, c3. rewrite E3, Hfl, reverse_cons, <- app_assoc. split; [done|]. by constructor.
  - cbn [source app t_run]. pose proof (punct_facts c Hl) as (Hd & Hwh & H34 & H35).
    assert (opens prev c = false) as Hop.
    { cbn [no_open] in Ho. unfold opens. rewrite (bool_decide_eq_false_2 _ H35). cbn [orb].
      repeat case_bool_decide; subst; cbn; try done; destruct Ho; auto. }
    rewrite code_delim by done. cbn [rbind].
    destruct (lexeme_token (Punct c) ln cl Hl) as (t & Em & Hlx & _). cbn [spelling] in Em. rewrite Em. cbn [push_opt].
    destruct Hw as [Hw|[-> Hm]].
    + apply blanks_white in Hw as [Hw1 Hw2].
      destruct (white_run w Hw2 Hw1 (t :: flush tok ln cl toks) [] c ln (cl + 1)%N) as (p2 & l2 & c2 & E2 & Hp2).
      rewrite t_run_app, E2. cbn [rbind flush].
      destruct (IH (t :: flush tok ln cl toks) [] p2 l2 c2 Ht) as (ts & p3 & l3 & c3 & E3 & Hf); [by left|by apply no_open_0|].
      exists (t :: ts), p3, l3, c3. rewrite E3, reverse_cons, <- app_assoc. split; [done|]. by constructor.
    + cbn [app].
      destruct (IH (t :: flush tok ln cl toks) [] c ln (cl + 1)%N Ht) as (ts & p3 & l3 & c3 & E3 & Hf); [by left| |].
      { destruct items as [|[[] ?] ?]; try done. }
      exists (t :: ts), p3, l3, c3. rewrite E3, reverse_cons, <- app_assoc. split; [done|]. by constructor.
  - destruct Ha as [->|(d & w' & i & ?)]; [|done]. cbn [source flush].
    change (concat (map (fun ec : bool * ascii => if fst ec then [chr 92; snd ec] else [snd ec]) cs)) with (lit_src cs).
    cbn [app t_run]. rewrite code_quote. cbn [rbind app].
    destruct (string_run cs Hl toks [chr 34] (chr 34) ln (cl + 1)%N) as (p & a & b & E); [done|].
    rewrite <- app_assoc, t_run_app, E. cbn [rbind app t_run]. rewrite string_step by done.
    change (bool_decide (chr 34 = chr 34)) with true. cbn [rbind].
    destruct (lexeme_token (Literal cs) a b Hl) as (t & Em & Hlx & _). cbn [spelling] in Em.
    rewrite <- ?app_comm_cons, Em. cbn [push_opt].
    destruct Hw as [Hw|[-> Hm]].
    + apply blanks_white in Hw as [Hw1 Hw2].
      destruct (white_run w Hw2 Hw1 (t :: toks) [] (chr 0) a (b + 1)%N) as (p2 & l2 & c2 & E2 & Hp2).
      rewrite t_run_app, E2. cbn [rbind flush].
      destruct (IH (t :: toks) [] p2 l2 c2 Ht) as (ts & p3 & l3 & c3 & E3 & Hf); [by left|by apply no_open_0|].
      exists (t :: ts), p3, l3, c3. rewrite E3, reverse_cons, <- app_assoc. split; [done|]. by constructor.
    + cbn [app].
      destruct (IH (t :: toks) [] (chr 0) a (b + 1)%N Ht) as (ts & p3 & l3 & c3 & E3 & Hf); [by left|by apply no_open_0|].
      exists (t :: ts), p3, l3, c3. rewrite E3, reverse_cons, <- app_assoc. split; [done|]. by constructor.
Qed.
Lemma tight_tokens w items : w = [] \/ blanks w -> tight items ->
  exists ts, raw_tokens (w ++ layout items) = Ok (ts ++ [eof_token]) /\
    Forall2 (fun lw t => lexed (fst lw) (k_type t) (k_text t)) items ts.
Proof.
  intros Hw Hok. assert (exists prev ln cl, t_run t_init w = Ok (cst [] [] prev ln cl) /\ pclass prev = 0%nat) as (p & a & b & E & Hp).
  { destruct Hw as [->|Hw]; [by exists (chr 0), 1%N, 1%N|]. apply blanks_white in Hw as [Hw1 Hw2].
    edestruct (white_run w Hw2 Hw1 [] [] (chr 0) 1%N 1%N) as (p & a & b & E & Hp). eauto 6. }
  destruct (tight_run items [] [] p a b Hok) as (ts & p2 & a2 & b2 & E2 & Hf); [by left|by apply no_open_0|].
  exists ts. split; [|done]. unfold raw_tokens. rewrite <- app_assoc, t_run_app, E. cbn [rbind]. rewrite t_run_app, E2.
  cbn [rbind t_run]. rewrite code_nul. cbn [rbind t_toks flush].
  by rewrite app_nil_r, reverse_involutive.
Qed.

(** ** Number literals *)
Lemma operator_pass_id l : forall acc, Forall (fun t => is_operator_word t = false) (reverse acc ++ l) -> operator_pass acc l = reverse acc ++ l.
Proof.
  induction l as [|t l IH]; intros acc H; cbn [operator_pass]; [by rewrite app_nil_r|].
  destruct acc as [|a acc]; [by apply (IH [t])|]. pose proof H as H'.
  rewrite reverse_cons, <- app_assoc in H. apply Forall_app in H as [_ H]. cbn [app] in H. apply Forall_cons in H as [Ha H]. apply Forall_cons in H as [Ht H].
  rewrite Ht, Ha, andb_false_r, IH; rewrite !reverse_cons, <- !app_assoc; [done|]. by rewrite reverse_cons, <- app_assoc in H'.
Qed.
Lemma passes_const l r :
  const_pass (length (merge_pass merge_operator [] (merge_pass merge_assign [] l))) (merge_pass merge_operator [] (merge_pass merge_assign [] l)) = Ok r ->
  Forall (fun t => is_operator_word t = false) r -> passes l = Ok r.
Proof. intros H Hf. unfold passes. rewrite H. cbn [rbind]. by rewrite operator_pass_id. Qed.
Lemma numeral_word a x : numeral a -> x ∈ [[]; $"i"; $"d"; $"f"] -> is_word (a ++ x).
Proof.
  intros [Hn Hd] Hx. apply is_word_spec. split; [by destruct a|]. apply Forall_app. split.
  - eapply Forall_impl; [exact Hd|]. intros c. apply word_digit.
  - repeat (apply elem_of_cons in Hx as [->|Hx]; [repeat constructor; by vm_compute|]). by apply elem_of_nil in Hx.
Qed.
Lemma spelled_numeral a x ty txt : numeral a -> x ∈ [[]; $"i"; $"d"; $"f"] -> spelled (a ++ x) ty txt ->
  ty = (if bool_decide (x = $"d") then CONST_DOUBLE else if bool_decide (x = $"f") then CONST_FLOAT else CONST_INTEGER) /\ txt = a.
Proof. intros [Hn Hd] Hx H. apply spelled_tok in H. rewrite tok_digits in H by done. by injection H as <- <-. Qed.
Lemma spelled_scope ty txt : spelled [chr 46] ty txt -> ty = OPERATOR_SCOPE /\ txt = $".".
Proof. intros H. apply spelled_tok in H. vm_compute in H. by injection H as <- <-. Qed.
Lemma spelled_semi ty txt : spelled [chr 59] ty txt -> ty = SEMICOLON /\ txt = $";".
Proof. intros H. apply spelled_tok in H. vm_compute in H. by injection H as <- <-. Qed.
Lemma whole_tokens a x : numeral a -> x ∈ [[]; $"i"; $"d"; $"f"] ->
  exists t s, tokenize (a ++ x ++ $";") = Ok [t; s; eof_token] /\ k_text t = a /\ k_type s = SEMICOLON /\
    k_type t = if bool_decide (x = $"d") then CONST_DOUBLE else if bool_decide (x = $"f") then CONST_FLOAT else CONST_INTEGER.
Proof.
  intros Ha Hx.
  destruct (tight_tokens [] [(Word (a ++ x), []); (Punct (chr 59), [])]) as (ts & E & Hf); [by left| |].
  { cbn. split_and!; try done; [by apply numeral_word|by right|apply (bool_decide_unpack _); by vm_compute|by right]. }
  apply Forall2_cons_inv_l in Hf as (t1 & ts1 & H1 & Hf & ->). apply Forall2_cons_inv_l in Hf as (t3 & ts3 & H3 & Hf & ->).
  apply Forall2_nil_inv_l in Hf as ->. cbn [fst lexed] in H1, H3.
  apply (spelled_numeral a x) in H1; [|done..]. apply spelled_semi in H3. destruct H1 as [H1 H1'], H3 as [H3 H3'].
  destruct t1 as [c1 ty1 s1 l1 k1 o1], t3 as [c3 ty3 s3 l3 k3 o3].
  cbn [k_type k_text] in *. subst. cbn [app layout source] in E. rewrite ?app_nil_r, <- app_assoc in E. cbn [app] in E.
  unfold tokenize. change ($";") with [chr 59]. rewrite E. cbn [rbind].
  repeat (apply elem_of_cons in Hx as [->|Hx]; [eexists _, _; split; [apply passes_const; [reflexivity|repeat constructor]|]; done|]). by apply elem_of_nil in Hx.
Qed.
Lemma fraction_raw a b x : numeral a -> numeral b -> x ∈ [[]; $"i"; $"d"; $"f"] ->
  exists c1 l1 k1 o1 c2 l2 k2 o2 c3 l3 k3 o3 c4 l4 k4 o4,
    raw_tokens (a ++ $"." ++ b ++ x ++ $";") =
    Ok [Token c1 CONST_INTEGER a l1 k1 o1; Token c2 OPERATOR_SCOPE ($".") l2 k2 o2;
        Token c3 (if bool_decide (x = $"d") then CONST_DOUBLE else if bool_decide (x = $"f") then CONST_FLOAT else CONST_INTEGER) b l3 k3 o3;
        Token c4 SEMICOLON ($";") l4 k4 o4; eof_token].
Proof.
  intros Ha Hb Hx.
  destruct (tight_tokens [] [(Word (a ++ []), []); (Punct (chr 46), []); (Word (b ++ x), []); (Punct (chr 59), [])]) as (ts & E & Hf); [by left| |].
  { cbn. split_and!; try done; try (by right); try (by apply numeral_word); try (apply (bool_decide_unpack _); by vm_compute).
    apply numeral_word; [done|]. left. }
  apply Forall2_cons_inv_l in Hf as (t1 & ts1 & H1 & Hf & ->). apply Forall2_cons_inv_l in Hf as (t2 & ts2 & H2 & Hf & ->).
  apply Forall2_cons_inv_l in Hf as (t3 & ts3 & H3 & Hf & ->). apply Forall2_cons_inv_l in Hf as (t4 & ts4 & H4 & Hf & ->).
  apply Forall2_nil_inv_l in Hf as ->. cbn [fst lexed] in H1, H2, H3, H4.
  apply (spelled_numeral a []) in H1; [|done|left]. apply spelled_scope in H2. apply (spelled_numeral b x) in H3; [|done..]. apply spelled_semi in H4.
  destruct H1 as [H1 H1'], H2 as [H2 H2'], H3 as [H3 H3'], H4 as [H4 H4'].
  destruct t1 as [c1 ty1 s1 l1 k1 o1], t2 as [c2 ty2 s2 l2 k2 o2], t3 as [c3 ty3 s3 l3 k3 o3], t4 as [c4 ty4 s4 l4 k4 o4].
  cbn [k_type k_text] in *. subst. eexists _, _, _, _, _, _, _, _, _, _, _, _, _, _, _, _.
  cbn [app layout source] in E. rewrite ?app_nil_r in E. cbn [app] in E. rewrite <- !app_assoc in E. exact E.
Qed.
Lemma fraction_tokens a b x : numeral a -> numeral b -> x ∈ [$"d"; $"f"] ->
  exists t s, tokenize (a ++ $"." ++ b ++ x ++ $";") = Ok [t; s; eof_token] /\ k_text t = a ++ $"." ++ b /\ k_type s = SEMICOLON /\
    k_type t = if bool_decide (x = $"d") then CONST_DOUBLE else CONST_FLOAT.
Proof.
  intros Ha Hb Hx. destruct (fraction_raw a b x) as (c1&l1&k1&o1&c2&l2&k2&o2&c3&l3&k3&o3&c4&l4&k4&o4&E); try done; [by do 2 right|].
  unfold tokenize. rewrite E. cbn [rbind].
  repeat (apply elem_of_cons in Hx as [->|Hx]; [eexists _, _; split; [apply passes_const; [reflexivity|repeat constructor]|]; cbn [k_text k_type set_text set_type]; by rewrite <- app_assoc|]). by apply elem_of_nil in Hx.
Qed.
Lemma fraction_plain a b x : numeral a -> numeral b -> x ∈ [[]; $"i"] ->
  tokenize (a ++ $"." ++ b ++ x ++ $";") = Throw "SyntaxError".
Proof.
  intros Ha Hb Hx. destruct (fraction_raw a b x) as (c1&l1&k1&o1&c2&l2&k2&o2&c3&l3&k3&o3&c4&l4&k4&o4&E); try done.
  { repeat (apply elem_of_cons in Hx as [->|Hx]; [apply (bool_decide_unpack _); by vm_compute|]). by apply elem_of_nil in Hx. }
  unfold tokenize. rewrite E. cbn [rbind].
  repeat (apply elem_of_cons in Hx as [->|Hx]; [reflexivity|]). by apply elem_of_nil in Hx.
Qed.
(** A suffix written apart, or directly behind the dot. *)
Lemma suffix_tokens a x dot : numeral a -> x ∈ [$"d"; $"f"; $"i"] -> dot ∈ [[]; $"."] ->
  let r := tokenize (a ++ dot ++ $" " ++ x ++ $";") in
  (x = $"i" -> r = Throw "SyntaxError") /\
  (x <> $"i" -> exists t s, r = Ok [t; s; eof_token] /\ k_text t = a ++ dot /\ k_type s = SEMICOLON /\
     k_type t = if bool_decide (x = $"d") then CONST_DOUBLE else CONST_FLOAT).
Proof.
  intros Ha Hx Hd. cbn zeta.
  assert (exists c1 l1 k1 o1 c2 l2 k2 o2 c3 l3 k3 o3 c4 l4 k4 o4, raw_tokens (a ++ dot ++ $" " ++ x ++ $";") =
    Ok (Token c1 CONST_INTEGER a l1 k1 o1 ::
        (if bool_decide (dot = []) then [] else [Token c2 OPERATOR_SCOPE ($".") l2 k2 o2]) ++
        [Token c3 IDENTIFIER x l3 k3 o3; Token c4 SEMICOLON ($";") l4 k4 o4; eof_token])) as
    (c1&l1&k1&o1&c2&l2&k2&o2&c3&l3&k3&o3&c4&l4&k4&o4&E).
  { assert (blanks ($" ")) as Hb. { split; [done|]. intros c Hc. apply elem_of_list_singleton in Hc. auto. }
    assert (is_word x) as Hwx. { repeat (apply elem_of_cons in Hx as [->|Hx]; [apply is_word_spec; split; [done|]; repeat constructor; by vm_compute|]). by apply elem_of_nil in Hx. }
    assert (forall ty txt, spelled x ty txt -> ty = IDENTIFIER /\ txt = x) as Hsx.
    { intros ty txt H. apply spelled_tok in H.
      repeat (apply elem_of_cons in Hx as [->|Hx]; [vm_compute in H; by injection H as <- <-|]). by apply elem_of_nil in Hx. }
    apply elem_of_cons in Hd as [->|Hd].
    - destruct (tight_tokens [] [(Word (a ++ []), $" "); (Word x, []); (Punct (chr 59), [])]) as (ts & E & Hf); [by left| |].
      { cbn. split_and!; try done; try (by right); try (by left); try (apply (bool_decide_unpack _); by vm_compute).
        apply numeral_word; [done|]. left. }
      apply Forall2_cons_inv_l in Hf as (t1 & ts1 & H1 & Hf & ->). 
      apply Forall2_cons_inv_l in Hf as (t3 & ts3 & H3 & Hf & ->). apply Forall2_cons_inv_l in Hf as (t4 & ts4 & H4 & Hf & ->).
      apply Forall2_nil_inv_l in Hf as ->. cbn [fst lexed] in H1, H3, H4.
      apply (spelled_numeral a []) in H1; [|done|left]. apply Hsx in H3. apply spelled_semi in H4.
      destruct H1 as [H1 H1'], H3 as [H3 H3'], H4 as [H4 H4'].
      destruct t1 as [c1 ty1 s1 l1 k1 o1], t3 as [c3 ty3 s3 l3 k3 o3], t4 as [c4 ty4 s4 l4 k4 o4].
      cbn [k_type k_text] in *. subst. eexists _, _, _, _, CNone, 0%N, 0%N, false, _, _, _, _, _, _, _, _.
      cbn [app layout source] in E. rewrite ?app_nil_r in E. cbn [app] in E. rewrite <- ?app_assoc in E. exact E.
    - apply elem_of_list_singleton in Hd as ->.
      destruct (tight_tokens [] [(Word (a ++ []), []); (Punct (chr 46), $" "); (Word x, []); (Punct (chr 59), [])]) as (ts & E & Hf); [by left| |].
      { cbn. split_and!; try done; try (by right); try (by left); try (apply (bool_decide_unpack _); by vm_compute).
        apply numeral_word; [done|]. left. }
      apply Forall2_cons_inv_l in Hf as (t1 & ts1 & H1 & Hf & ->). apply Forall2_cons_inv_l in Hf as (t2 & ts2 & H2 & Hf & ->).
      apply Forall2_cons_inv_l in Hf as (t3 & ts3 & H3 & Hf & ->). apply Forall2_cons_inv_l in Hf as (t4 & ts4 & H4 & Hf & ->).
      apply Forall2_nil_inv_l in Hf as ->. cbn [fst lexed] in H1, H2, H3, H4.
      apply (spelled_numeral a []) in H1; [|done|left]. apply spelled_scope in H2. apply Hsx in H3. apply spelled_semi in H4.
      destruct H1 as [H1 H1'], H2 as [H2 H2'], H3 as [H3 H3'], H4 as [H4 H4'].
      destruct t1 as [c1 ty1 s1 l1 k1 o1], t2 as [c2 ty2 s2 l2 k2 o2], t3 as [c3 ty3 s3 l3 k3 o3], t4 as [c4 ty4 s4 l4 k4 o4].
      cbn [k_type k_text] in *. subst. eexists _, _, _, _, _, _, _, _, _, _, _, _, _, _, _, _.
      cbn [app layout source] in E. rewrite ?app_nil_r in E. cbn [app] in E. rewrite <- ?app_assoc in E. exact E. }
  unfold tokenize. rewrite E. cbn [rbind].
  repeat (apply elem_of_cons in Hx as [->|Hx]; [
    repeat (apply elem_of_cons in Hd as [->|Hd]; [split; intros Hi; try done; try discriminate;
      eexists _, _; (split; [apply passes_const; [reflexivity|repeat constructor]|]); cbn [k_text k_type set_text set_type]; by rewrite ?app_nil_r|]); by apply elem_of_nil in Hd|]).
  by apply elem_of_nil in Hx.
Qed.
