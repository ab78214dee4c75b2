(** Proofs about the tokenizer model: comments, end of file, lexemes. *)
From Verif Require Import Base Base_Proofs Text_Model Text_Proofs Tok_Model Tok_Spec Tok_Proofs.

(** ** Comments (C13) *)
Lemma line_run text : (forall c, c ∈ text -> c <> chr 10) -> forall toks tok prev ln cl, exists prev' cl',
  t_run (TState toks tok false false true false prev ln cl) text = Ok (TState toks tok false false true false prev' ln cl').
Proof.
  induction text as [|c text IH]; intros H toks tok prev ln cl; [cbn; eauto|]. cbn [t_run]. rewrite line_step.
  assert (c <> chr 10) as Hc by (apply H; left). rewrite (bool_decide_eq_false_2 _ Hc). cbn [rbind].
  apply IH. intros x Hx. apply H. by right.
Qed.
Definition no_close (t : str) : Prop := forall x y, t <> x ++ [chr 42; chr 47] ++ y.
Lemma no_close_tail c t : no_close (c :: t) -> no_close t.
Proof. intros H x y ->. by apply (H (c :: x) y). Qed.
Lemma no_close_head c t d : no_close (c :: t) -> d = c \/ d <> chr 42 -> no_close (d :: t).
Proof.
  intros H [->|Hd]; [done|]. intros [|z x] y E; [by injection E as E|]. injection E as -> E.
  by apply (no_close_tail _ _ H x y).
Qed.
Lemma block_run text : forall toks tok prev ln cl, no_close (prev :: text) -> exists prev' ln' cl',
  t_run (TState toks tok false true false false prev ln cl) text = Ok (TState toks tok false true false false prev' ln' cl').
Proof.
  induction text as [|c text IH]; intros toks tok prev ln cl H; [cbn; eauto|]. cbn [t_run]. rewrite block_step.
  destruct (bool_decide (prev = chr 42) && bool_decide (c = chr 47)) eqn:E.
  { apply andb_true_iff in E as [E1 E2]. apply bool_decide_eq_true in E1, E2. subst. by destruct (H [] text). }
  apply no_close_tail in H. destruct (bool_decide (c = chr 10)); cbn [rbind]; apply IH; [|done].
  eapply no_close_head; [exact H|]. by right.
Qed.
Lemma slash_step toks tok prev ln cl : prev <> chr 47 ->
  t_step (cst toks tok prev ln cl) (chr 47) =
  Ok (cst (Token Operator MATH_DIVIDE ($"/") ln cl false :: flush tok ln cl toks) [] (chr 47) ln (cl + 1)%N).
Proof. intros H. rewrite code_delim; [done|done|done|done|]. unfold opens. by rewrite (bool_decide_eq_false_2 _ H). Qed.
Lemma nl_step toks tok prev ln cl :
  t_step (cst toks tok prev ln cl) (chr 10) = Ok (cst (flush tok ln cl toks) [] (chr 0) (ln + 1)%N 1%N).
Proof. by rewrite code_white. Qed.
Lemma fin_line toks tok prev ln cl c : c = chr 10 ->
  t_step (TState toks tok false false true false prev ln cl) c = Ok (cst toks tok (chr 0) (ln + 1)%N 1%N).
Proof. intros ->. by rewrite line_step. Qed.

Lemma c13_line a text b : place_after a = Code false -> (forall c, c ∈ text -> c <> chr 10) ->
  shapes (tokenize (a ++ (chr 47 :: chr 47 :: text) ++ chr 10 :: b)) = shapes (tokenize (a ++ chr 10 :: b)).
Proof.
  intros Ha Ht. change (chr 10 :: b) with ([chr 10] ++ b). rewrite !app_assoc. apply tokenize_eqv. rewrite <- !app_assoc, !t_run_app.
  destruct (t_run t_init a) as [s| | |] eqn:E; try done. cbn [rbind].
  pose proof (place_code _ _ _ Ha E) as Hs. apply code_state in Hs as [-> Hp]. apply bool_decide_eq_false in Hp.
  cbn [app t_run]. rewrite (slash_step _ _ _ _ _ Hp). cbn [rbind]. rewrite code_slash2. cbn [pop_back rbind].
  rewrite t_run_app. edestruct (line_run text Ht) as (p & cl & ->). cbn [rbind t_run]. rewrite (fin_line _ _ _ _ _ _ eq_refl).
  rewrite nl_step. cbn [rbind]. apply eqv_refl.
Qed.
Lemma c13_hash a w text b sl : place_after a = Code sl -> blanks w -> (forall c, c ∈ text -> c <> chr 10) ->
  shapes (tokenize (a ++ w ++ (chr 35 :: text) ++ chr 10 :: b)) = shapes (tokenize (a ++ w ++ chr 10 :: b)).
Proof.
  intros Ha Hw Ht. change (chr 10 :: b) with ([chr 10] ++ b). rewrite !app_assoc. apply tokenize_eqv. rewrite <- !app_assoc, !t_run_app.
  destruct (t_run t_init a) as [s| | |] eqn:E; try done. cbn [rbind].
  pose proof (place_code _ _ _ Ha E) as Hs. apply code_state in Hs as [-> Hp].
  rewrite !t_run_app. apply blanks_white in Hw as [Hw1 Hw2]. edestruct (white_run w Hw2 Hw1) as (p & ln & cl & -> & Hp'). cbn [rbind].
  cbn [app t_run]. rewrite code_hash. cbn [rbind].
  rewrite t_run_app. edestruct (line_run text Ht) as (p' & cl' & ->). cbn [rbind t_run]. rewrite (fin_line _ _ _ _ _ _ eq_refl).
  rewrite nl_step. cbn [rbind]. apply eqv_refl.
Qed.
Lemma c13_block a text w b : place_after a = Code false -> no_close (chr 42 :: text) -> blanks w ->
  shapes (tokenize (a ++ (chr 47 :: chr 42 :: text ++ [chr 42; chr 47]) ++ w ++ b)) = shapes (tokenize (a ++ w ++ b)).
Proof.
  intros Ha Ht Hw. rewrite !app_assoc. apply tokenize_eqv. rewrite <- !app_assoc, !t_run_app.
  destruct (t_run t_init a) as [s| | |] eqn:E; try done. cbn [rbind].
  pose proof (place_code _ _ _ Ha E) as Hs. apply code_state in Hs as [-> Hp]. apply bool_decide_eq_false in Hp.
  rewrite !t_run_app. cbn [app t_run]. rewrite (slash_step _ _ _ _ _ Hp). cbn [rbind]. rewrite code_slashstar. cbn [pop_back rbind].
  rewrite t_run_app. edestruct (block_run text) as (p & ln & cl & ->); [exact Ht|]. cbn [rbind t_run]. rewrite block_step.
  change (bool_decide (chr 42 = chr 47)) with false. rewrite andb_false_r. change (bool_decide (chr 42 = chr 10)) with false. cbn [rbind].
  rewrite block_step. change (bool_decide (chr 42 = chr 42) && bool_decide (chr 47 = chr 47)) with true. cbn [rbind].
  apply blanks_white in Hw as [Hw1 Hw2]. edestruct (white_run w Hw2 Hw1) as (p1 & l1 & c1 & -> & Hp1).
  edestruct (white_run w Hw2 Hw1) as (p2 & l2 & c2 & -> & Hp2). unfold eqv_res, eqv. cbn [t_toks t_tok t_esc t_mlc t_slc t_str t_prev flush].
  repeat split. congruence.
Qed.

(** ** Tokens come from make_token *)
Lemma toks_step (P : token -> Prop) s c s' :
  (forall x ln cl t, make_token x ln cl = Some t -> P t) ->
  Forall P (t_toks s) -> t_step s c = Ok s' -> Forall P (t_toks s').
Proof.
  intros Hm Hs H. assert (forall x ln cl l, Forall P l -> Forall P (push_opt (make_token x ln cl) l)) as Hpush.
  { intros x ln cl l Hl. destruct (make_token x ln cl) eqn:E; cbn; eauto. }
  unfold t_step in H. destruct (open_comment s c) as [[[a b] l]| | |] eqn:E; try done. cbn [rbind] in H.
  assert (Forall P l) as Hl.
  { unfold open_comment in E. destruct (t_toks s) as [|t0 l0] eqn:Et; repeat case_match; cbn in E; try discriminate;
      injection E as <- <- <-; try done; by apply Forall_inv_tail in Hs. }
  destruct (b || a).
  - destruct (bool_decide (c = chr 10)); by injection H as <-.
  - unfold read_char in H. destruct (t_esc s); [by injection H as <-|].
    destruct (negb (negb (bool_decide (c = chr 34)) && t_str s && bool_decide (c = chr 92)) && negb (bool_decide (c = chr 0))).
    2: { destruct (bool_decide (c = chr 10)); by injection H as <-. }
    destruct (negb (if bool_decide (c = chr 34) then negb (t_str s) else t_str s) && is_delim c).
    2: { destruct (bool_decide (c = chr 10)); by injection H as <-. }
    destruct (t_tok s) as [|x tok]; [|destruct (bool_decide (c = chr 34))].
    + destruct (bool_decide (c = chr 0)), (bool_decide (c = chr 10)); injection H as <-; cbn; auto.
    + change (bool_decide (chr 0 = chr 0)) with true in H. change (bool_decide (chr 0 = chr 10)) with false in H. injection H as <-; cbn; auto.
    + destruct (bool_decide (c = chr 0)), (bool_decide (c = chr 10)); injection H as <-; cbn; auto.
Qed.
Lemma toks_run (P : token -> Prop) text :
  (forall x ln cl t, make_token x ln cl = Some t -> P t) ->
  forall s s', Forall P (t_toks s) -> t_run s text = Ok s' -> Forall P (t_toks s').
Proof.
  intros Hm. induction text as [|c text IH]; intros s s' Hs H; cbn in H; [by injection H as <-|].
  destruct (t_step s c) as [s1| | |] eqn:E; try done. eapply IH; [|exact H]. by eapply toks_step.
Qed.
Lemma classify_char_types c ct ty : classify_char c = Some (Some (ct, ty)) -> ty <> ENDOFFILE /\ ty <> RESERVED_WORD.
Proof.
  intros H. pose proof (char_forall (fun c => match classify_char c with
    | Some (Some (_, ty)) => negb (ttype_eqb ty ENDOFFILE) && negb (ttype_eqb ty RESERVED_WORD) | _ => true end) ltac:(by vm_compute) c) as F.
  cbn beta in F. rewrite H in F. split; intros ->; by vm_compute in F.
Qed.
Lemma make_token_no_eof x ln cl t : make_token x ln cl = Some t -> k_type t <> ENDOFFILE.
Proof.
  unfold make_token. destruct (match x with [] => None | c :: _ => classify_char c end) as [[[ct ty]|]|] eqn:E; intros H; try done.
  - injection H as <-. cbn. destruct x as [|c x]; [done|]. exact (proj1 (classify_char_types _ _ _ E)).
  - destruct (classify_word x) as [[[ct ty] txt] o] eqn:Ec. injection H as <-. cbn. intros ->. unfold classify_word in Ec.
    repeat match type of Ec with context [if ?b then _ else _] => destruct b; [discriminate Ec|] end. discriminate Ec.
Qed.
Lemma raw_no_eof text l : raw_tokens text = Ok l -> exists l', l = l' ++ [eof_token] /\ Forall (fun t => k_type t <> ENDOFFILE) l'.
Proof.
  unfold raw_tokens. intros H. destruct (t_run t_init (text ++ [chr 0])) as [s| | |] eqn:E; try done. cbn in H. injection H as <-.
  eexists. split; [done|]. apply Forall_reverse. eapply toks_run; [exact make_token_no_eof| |exact E]. constructor.
Qed.
