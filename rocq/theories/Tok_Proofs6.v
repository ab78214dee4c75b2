(** Proofs about the tokenizer model: order of positions (C16), joining (C17). *)
From Verif Require Import Base Base_Proofs Text_Model Text_Proofs Tok_Model Tok_Spec Tok_Proofs Tok_Proofs2 Tok_Proofs3 Tok_Proofs4.
From Coq Require Import Sorting.Sorted.

Definition pos (t : token) : N * N := (k_line t, k_col t).
Lemma make_token_pos x ln cl t : make_token x ln cl = Some t -> pos t = (ln, cl).
Proof.
  unfold make_token. destruct (match x with [] => None | c :: _ => classify_char c end) as [[[ct ty]|]|]; intros H; try done.
  - by injection H as <-.
  - destruct (classify_word x) as [[[ct ty] txt] o]. by injection H as <-.
Qed.
(** One step drops at most the newest token and adds tokens at the current position, at a delimiter. *)
Lemma step_new s c s' : t_step s c = Ok s' ->
  exists new base, t_toks s' = new ++ base /\ (base = t_toks s \/ exists t, t_toks s = t :: base) /\
    Forall (fun t => pos t = (t_line s, t_col s) /\ is_delim c = true) new.
Proof.
  intros H. unfold t_step in H. destruct (open_comment s c) as [[[a b] l]| | |] eqn:E; try done. cbn [rbind] in H.
  assert (l = t_toks s \/ exists t, t_toks s = t :: l) as Hl.
  { unfold open_comment in E. destruct (t_toks s) as [|t0 l0] eqn:Et; repeat case_match; cbn in E; try discriminate;
      injection E as <- <- <-; eauto. }
  assert (forall x k, exists new, push_opt (make_token x (t_line s) (t_col s)) k = new ++ k /\ Forall (fun t => pos t = (t_line s, t_col s)) new) as Hpush.
  { intros x k. destruct (make_token x (t_line s) (t_col s)) eqn:Em; cbn.
    - exists [t]. split; [done|]. constructor; [by eapply make_token_pos|done].
    - by exists []. }
  destruct (b || a).
  - exists [], l. destruct (bool_decide (c = chr 10)); by injection H as <-.
  - unfold read_char in H. destruct (t_esc s); [exists [], l; by injection H as <-|].
    destruct (negb (negb (bool_decide (c = chr 34)) && t_str s && bool_decide (c = chr 92)) && negb (bool_decide (c = chr 0))).
    2: { exists [], l. destruct (bool_decide (c = chr 10)); by injection H as <-. }
    destruct (negb (if bool_decide (c = chr 34) then negb (t_str s) else t_str s)); cbn [andb] in H.
    2: { exists [], l. destruct (bool_decide (c = chr 10)); by injection H as <-. }
    destruct (is_delim c).
    2: { exists [], l. destruct (bool_decide (c = chr 10)); by injection H as <-. }
    assert (forall new, Forall (fun t => pos t = (t_line s, t_col s)) new -> Forall (fun t => pos t = (t_line s, t_col s) /\ true = true) new) as Hw.
    { intros new Hn. eapply Forall_impl; [exact Hn|]. done. }
    destruct (t_tok s) as [|x tok]; [|destruct (bool_decide (c = chr 34))].
    + destruct (bool_decide (c = chr 0)); [exists [], l; destruct (bool_decide (c = chr 10)); by injection H as <-|].
      destruct (Hpush [c] l) as (new & E1 & E2). exists new, l. rewrite E1 in H. destruct (bool_decide (c = chr 10)); injection H as <-; auto.
    + change (bool_decide (chr 0 = chr 0)) with true in H. change (bool_decide (chr 0 = chr 10)) with false in H.
      destruct (Hpush ((x :: tok) ++ [c]) l) as (new & E1 & E2). exists new, l. rewrite E1 in H. injection H as <-; auto.
    + destruct (Hpush (x :: tok) l) as (new & E1 & E2). rewrite E1 in H.
      destruct (bool_decide (c = chr 0)); [exists new, l; destruct (bool_decide (c = chr 10)); injection H as <-; auto|].
      destruct (Hpush [c] (new ++ l)) as (new2 & E3 & E4). rewrite E3 in H. exists (new2 ++ new), l. rewrite <- app_assoc.
      destruct (bool_decide (c = chr 10)); injection H as <-; (split; [done|]); (split; [done|]); apply Hw, Forall_app; done.
Qed.
(** Tokens, newest first, with the index of the character that terminated each. *)
Definition ended_at (text : list ascii) (t : token) (i : nat) : Prop :=
  (exists c, text !! i = Some c /\ is_delim c = true) /\ pos t = position_after (take i text).
Definition indexed (hist : str) (toks : list token) (idx : list nat) : Prop :=
  Forall2 (ended_at hist) toks idx /\ StronglySorted ge idx.
Lemma ended_at_app hist x t i : ended_at hist t i -> ended_at (hist ++ x) t i.
Proof.
  intros [(c & Hc & Hd) Hp]. pose proof (lookup_lt_Some _ _ _ Hc). split.
  - exists c. by rewrite lookup_app_l.
  - rewrite Hp. by rewrite take_app_le by lia.
Qed.
Lemma indexed_run text : forall hist s s' idx, no_escaped_newline (hist ++ text) -> at_place s (place_after hist) -> at_pos s hist ->
  indexed hist (t_toks s) idx -> t_run s text = Ok s' -> exists idx', indexed (hist ++ text) (t_toks s') idx'.
Proof.
  induction text as [|c text IH]; intros hist s s' idx Hn Hp Ha Hi H; cbn in H.
  { injection H as <-. rewrite app_nil_r. eauto. }
  destruct (t_step s c) as [s1| | |] eqn:E; try done. cbn in H.
  rewrite (cons_middle c hist text) in Hn |- *. rewrite app_assoc in *.
  destruct (step_new _ _ _ E) as (new & base & Et & Hb & Hnew).
  assert (exists idxb, indexed hist base idxb) as (idxb & Hb1 & Hb2).
  { destruct Hb as [->|[t Eb]]; [eauto|]. destruct Hi as [Hi1 Hi2]. rewrite Eb in Hi1. apply Forall2_cons_inv_l in Hi1 as (i & idx' & _ & Hi1 & ->).
    exists idx'. split; [done|]. by apply StronglySorted_inv in Hi2 as [? _]. }
  eapply (IH (hist ++ [c]) s1 s' (replicate (length new) (length hist) ++ idxb)); [done| | | |exact H].
  - rewrite place_snoc. by eapply place_step.
  - unfold at_pos in *. rewrite position_snoc, <- Ha. eapply pos_step; [exact Hp| |exact E].
    intros He ->. apply escape_hist in He as [h ->]. apply (Hn h text). by rewrite <- !app_assoc.
  - rewrite Et. split.
    + apply Forall2_app; [|eapply Forall2_impl; [exact Hb1|]; intros; by apply ended_at_app].
      clear -Hnew Ha. induction Hnew as [|t new [Ht Hd] Hnew IH]; cbn; constructor; [|done].
      split; [exists c; split; [by apply list_lookup_middle|done]|]. rewrite Ht. rewrite take_app. exact Ha.
    + assert (Forall (fun i => i < length hist)%nat idxb) as Hlt.
      { clear -Hb1. induction Hb1 as [|t i ts is [(c & Hc & _) _] H IH]; constructor; [|done]. by eapply lookup_lt_Some. }
      clear -Hb2 Hlt. induction (length new) as [|n IH]; cbn; [done|]. constructor; [done|].
      apply Forall_app. split; [|eapply Forall_impl; [exact Hlt|]; intros; cbn in *; lia].
      clear. induction n; cbn; constructor; [lia|done].
Qed.
Lemma raw_indexed text raw : no_escaped_newline text -> raw_tokens text = Ok (raw ++ [eof_token]) ->
  exists idx, Forall2 (ended_at text) raw idx /\ StronglySorted le idx.
Proof.
  intros Hn H. unfold raw_tokens in H. rewrite t_run_app in H. destruct (t_run t_init text) as [s| | |] eqn:E; try done. cbn [rbind t_run] in H.
  destruct (t_step s (chr 0)) as [s'| | |] eqn:E0; try done. cbn [rbind] in H. injection H as H. apply app_inj_tail in H as [<- _].
  destruct (indexed_run text [] t_init s [] Hn) as (idx & Hi1 & Hi2); [done|done|split; constructor|done|]. cbn [app] in *.
  destruct (step_new _ _ _ E0) as (new & base & Et & Hb & Hnew).
  assert (new = []) as ->. { destruct new; [done|]. apply Forall_cons in Hnew as [[_ Hd] _]. by vm_compute in Hd. }
  cbn [app] in Et. subst base.
  assert (exists idx, indexed text (t_toks s') idx) as (idx' & Hj1 & Hj2).
  { destruct Hb as [->|[t Eb]]; [by exists idx|]. rewrite Eb in Hi1. apply Forall2_cons_inv_l in Hi1 as (i & idx' & _ & Hi1 & ->).
    exists idx'. split; [done|]. by apply StronglySorted_inv in Hi2 as [? _]. }
  exists (reverse idx'). split; [by apply Forall2_reverse|].
  clear -Hj2. induction Hj2 as [|i idx H IH Hf]; [constructor|]. rewrite reverse_cons.
  clear H. assert (Forall (fun j => j <= i)%nat (reverse idx)) as Hr by (apply Forall_reverse; eapply Forall_impl; [exact Hf|]; intros; cbn in *; lia).
  clear Hf. induction IH as [|j r Hr1 IH Hf]; cbn; [repeat constructor|]. apply Forall_cons in Hr as [Hji Hr].
  constructor; [by apply IH|]. apply Forall_app. split; [done|]. by constructor.
Qed.

(** ** The positions after the passes are among those before, in the same order *)
Lemma merge_pass_sub f l : forall acc, map pos (merge_pass f acc l) `sublist_of` map pos (reverse acc ++ l).
Proof.
  induction l as [|t l IH]; intros acc; cbn [merge_pass]; [by rewrite app_nil_r|].
  destruct acc as [|a acc]; [apply (IH [t])|].
  destruct (f (k_type a) (k_type t)) as [[[c ty] s]|].
  - etrans; [apply IH|]. rewrite !reverse_cons, !map_app. cbn [map]. change (pos (Token c ty s (k_line t) (k_col t) false)) with (pos t).
    rewrite <- !app_assoc. cbn. apply sublist_app; [done|]. by apply sublist_cons.
  - etrans; [apply IH|]. rewrite !reverse_cons, !map_app. cbn [map]. by rewrite <- !app_assoc.
Qed.
Lemma combine_pos ts : forall op op', combine op ts = Ok op' -> pos op' = pos op.
Proof.
  induction ts as [|t ts IH]; intros op op' H; cbn [combine] in H; [by injection H as <-|].
  destruct (k_type t); try (by apply IH in H); try done.
  destruct (str_eqb (k_text t) ($"d")); [by apply IH in H|]. destruct (str_eqb (k_text t) ($"f")); [by apply IH in H|].
  destruct (str_eqb (k_text t) ($"i")); [done|by apply IH in H].
Qed.
Lemma const_pass_sub n l r : const_pass n l = Ok r -> map pos r `sublist_of` map pos l.
Proof.
  revert n l r. apply (const_pass_ind (fun l r => map pos r `sublist_of` map pos l)); [done|].
  intros pre op mid post op' r IH Hne Ht Hc. etrans; [exact IH|]. apply combine_pos in Hc.
  rewrite !map_app. cbn [map]. rewrite map_app, Hc. apply sublist_app; [done|]. apply sublist_skip. by apply sublist_inserts_l.
Qed.
Lemma operator_pass_sub l : forall acc, map pos (operator_pass acc l) `sublist_of` map pos (reverse acc ++ l).
Proof.
  induction l as [|t l IH]; intros acc; cbn [operator_pass]; [by rewrite app_nil_r|].
  destruct acc as [|a acc]; [apply (IH [t])|].
  assert (forall x, map pos (operator_pass (set_text (set_type t IDENTIFIER) x :: acc) l) `sublist_of` map pos (reverse (a :: acc) ++ t :: l)) as H.
  { intros x. etrans; [apply IH|]. rewrite !reverse_cons, !map_app. cbn [map].
    rewrite <- !app_assoc. cbn. apply sublist_app; [done|]. by apply sublist_cons. }
  destruct (is_assign_or_op a && is_operator_word t); [done|]. destruct (is_operator_word a); [done|].
  etrans; [apply IH|]. rewrite !reverse_cons, !map_app. cbn [map]. by rewrite <- !app_assoc.
Qed.
Lemma passes_sub l r : passes l = Ok r -> map pos r `sublist_of` map pos l.
Proof.
  unfold passes. intros H. set (m := merge_pass merge_operator [] (merge_pass merge_assign [] l)) in *.
  destruct (const_pass (length m) m) as [b| | |] eqn:E; try done. cbn in H. injection H as <-.
  etrans; [apply operator_pass_sub|]. cbn. etrans; [by eapply const_pass_sub|]. unfold m.
  etrans; [apply merge_pass_sub|]. cbn. apply (merge_pass_sub merge_assign l []).
Qed.
Lemma sublist_snoc_inv {A} (x y : list A) a b : x ++ [a] `sublist_of` y ++ [b] -> x `sublist_of` y.
Proof.
  intros H. apply sublist_app_r in H as (k1 & k2 & E & H1 & H2).
  apply sublist_cons_r in H2 as [H2|(k & -> & H2)].
  - apply sublist_nil_r in H2 as ->. rewrite app_nil_r in E. subst k1. etrans; [|exact H1]. by apply sublist_inserts_r.
  - apply sublist_nil_r in H2 as ->. by apply app_inj_tail in E as [-> _].
Qed.
Lemma sublist_sorted {A} (R : A -> A -> Prop) x y : x `sublist_of` y -> StronglySorted R y -> StronglySorted R x.
Proof.
  induction 1 as [|a x y H IH|a x y H IH]; intros Hs; [done|..]; apply StronglySorted_inv in Hs as [Hs Hf]; [|by apply IH].
  constructor; [by apply IH|]. apply Forall_forall. intros z Hz. rewrite Forall_forall in Hf. apply Hf.
  eapply elem_of_submseteq; [exact Hz|by apply sublist_submseteq].
Qed.
(** Earlier in the text, no later line. *)
Definition not_after (p q : N * N) : Prop := (fst p < fst q \/ fst p = fst q /\ snd p <= snd q)%N.
Lemma position_mono text : forall i j, (i <= j)%nat -> not_after (position_after (take i text)) (position_after (take j text)).
Proof.
  assert (forall x p, not_after p (fold_left advance x p)) as H.
  { induction x as [|c x IH]; intros p; cbn; [right; lia|]. specialize (IH (advance p c)). unfold not_after, advance in *.
    destruct (bool_decide (c = chr 10)); cbn [fst snd] in *; lia. }
  intros i j Hij. assert (take i text = take i (take j text)) as -> by (by rewrite take_take, Nat.min_l).
  rewrite <- (take_drop i (take j text)) at 2. unfold position_after. rewrite fold_left_app. apply H.
Qed.
Lemma raw_sorted text raw : no_escaped_newline text -> raw_tokens text = Ok (raw ++ [eof_token]) -> StronglySorted not_after (map pos raw).
Proof.
  intros Hn H. destruct (raw_indexed text raw Hn H) as (idx & Hf & Hs). clear H.
  induction Hf as [|t i raw idx [_ Hti] Hf IH]; cbn; constructor; apply StronglySorted_inv in Hs as [Hs Hle]; [by apply IH|].
  rewrite Hti. clear -Hf Hle. induction Hf as [|t' j raw idx [_ Htj] Hf IH]; cbn; constructor; apply Forall_cons in Hle as [Hij Hle]; [|by apply IH].
  rewrite Htj. by apply position_mono.
Qed.
Lemma final_sorted text body e : no_escaped_newline text -> tokenize text = Ok (body ++ [e]) -> StronglySorted not_after (map pos body).
Proof.
  intros Hn H. unfold tokenize in H. destruct (raw_tokens text) as [r| | |] eqn:E; try done. cbn in H.
  destruct (raw_no_eof text r E) as (raw & -> & _). apply passes_sub in H. rewrite !map_app in H. apply sublist_snoc_inv in H.
  eapply sublist_sorted; [exact H|]. by eapply raw_sorted.
Qed.
