(** The tokenizer marks the words that may be missing. *)
From Verif Require Import Base Base_Proofs Text_Model Text_Proofs Tok_Model Tok_Spec Tok_Proofs Tok_Proofs2 Tok_Proofs3 Decl_Model Decl_Spec
  Decl_Proofs Decl_Proofs2.

Lemma marked_not t : k_opt t = false -> k_type t ∉ optional_types -> marked t.
Proof. intros H1 H2. unfold marked. rewrite H1. split; [done|]. intros H. by destruct (H2 H). Qed.
Lemma marked_yes t : k_opt t = true -> k_type t ∈ optional_types -> marked t.
Proof. intros H1 H2. unfold marked. by rewrite H1. Qed.
Lemma make_token_marked x ln cl t : make_token x ln cl = Some t -> marked t.
Proof.
  unfold make_token. destruct (match x with [] => None | c :: _ => classify_char c end) as [[[ct ty]|]|] eqn:E; intros H; try done.
  - injection H as <-. destruct x as [|c x]; [done|]. apply marked_not; [done|]. cbn [k_type].
    pose proof (char_forall (fun c => match classify_char c with
      | Some (Some (_, ty)) => forallb (fun o => negb (ttype_eqb ty o)) optional_types | _ => true end) ltac:(by vm_compute) c) as F.
    cbn beta in F. rewrite E in F. intros Hin. rewrite forallb_forall in F. apply elem_of_list_In in Hin. apply F in Hin.
    apply negb_true_iff, not_true_iff_false in Hin. apply Hin. by apply ttype_eqb_eq.
  - destruct (classify_word x) as [[[ct ty] txt] o] eqn:Ec. injection H as <-. unfold classify_word in Ec.
    repeat match type of Ec with context [if ?b then _ else _] => destruct b; [injection Ec as <- <- <- <-; first [apply marked_not; [done|notin] | apply marked_yes; [done|inl]]|] end.
    injection Ec as <- <- <- <-. apply marked_not; [done|notin].
Qed.
Lemma merge_marked f l : (forall a b c ty s, f a b = Some (c, ty, s) -> ty ∉ optional_types) ->
  forall acc, Forall marked acc -> Forall marked l -> Forall marked (merge_pass f acc l).
Proof.
  intros Hf. induction l as [|t l IH]; intros acc Ha Hl; cbn [merge_pass]; [by apply Forall_reverse|].
  apply Forall_cons in Hl as [Ht Hl]. destruct acc as [|a acc]; [apply IH; [by apply Forall_singleton|done]|].
  destruct (f (k_type a) (k_type t)) as [[[c ty] s]|] eqn:E; apply IH; try done.
  - constructor; [|by apply Forall_inv_tail in Ha]. apply marked_not; [done|]. by eapply Hf.
  - by constructor.
Qed.
Lemma combine_marked ts : forall op op', marked op -> (k_type op = CONST_INTEGER \/ k_type op = CONST_DOUBLE \/ k_type op = CONST_FLOAT) ->
  combine op ts = Ok op' -> marked op'.
Proof.
  induction ts as [|t ts IH]; intros op op' Hm Ht; cbn [combine]; [by intros [= <-]|].
  assert (Ho : k_opt op = false).
  { destruct (k_opt op) eqn:E; [|done]. apply Hm in E. exfalso. revert E. destruct Ht as [->|[->| ->]]; notin. }
  assert (H1 : forall s, marked (set_text op s)).
  { intros s. apply marked_not; [done|]. cbn. destruct Ht as [->|[->| ->]]; notin. }
  assert (H2 : forall ty, ty ∉ optional_types -> marked (set_type op ty)).
  { intros ty Hty. by apply marked_not. }
  assert (H3 : forall ty s, ty ∉ optional_types -> marked (set_text (set_type op ty) s)).
  { intros ty s Hty. by apply marked_not. }
  destruct (k_type t); try (apply IH; [by apply H1|done]); try done; repeat case_match; try done;
    (apply IH; [first [apply H1 | (apply H2; notin) | (apply H3; notin)] | cbn; tauto]).
Qed.
Lemma const_marked fuel : forall l l', Forall marked l -> const_pass fuel l = Ok l' -> Forall marked l'.
Proof.
  induction fuel as [|fuel IH]; intros l l' Hl; cbn [const_pass]; destruct (search_any const_patterns l) as [[i n]|] eqn:E; try done;
    try (by intros [= <-]); destruct (drop i l) as [|op rest] eqn:Ed; try done.
  assert (Hop : k_type op = CONST_INTEGER).
  { assert (Hs : forall ps, (forall p, p ∈ ps -> p ∈ const_patterns) -> forall i n, search_any ps l = Some (i, n) -> drop i l = op :: rest -> k_type op = CONST_INTEGER).
    { clear. intros ps. induction ps as [|p ps IH]; [done|]. intros Hp i n. cbn [search_any]. destruct (search p l) as [j|] eqn:Es.
      - intros [= <- <-] Hd. apply search_some in Es as [_ Es]. rewrite Hd in Es. specialize (Hp p ltac:(left)).
        unfold starts_with in Es. apply bool_decide_eq_true in Es. unfold const_patterns in Hp.
        repeat (apply elem_of_cons in Hp as [->|Hp]; [cbn in Es; injection Es as Es _; by apply (tnum_inj CONST_INTEGER) in Es|]). by apply elem_of_nil in Hp.
      - apply IH. intros q Hq. apply Hp. by right. }
    by apply (Hs const_patterns (fun p Hp => Hp) i n E). }
  intros H. destruct (combine op (take (n - 1) rest)) as [op'| | |] eqn:Ec; try done. cbn [rbind] in H.
  assert (Hd : Forall marked (op :: rest)) by (rewrite <- Ed; by apply Forall_drop). apply Forall_cons in Hd as [Hd1 Hd2].
  apply IH in H; [done|]. apply Forall_app. split; [by apply Forall_take|]. constructor; [|by apply Forall_drop].
  eapply combine_marked; [exact Hd1|by left|exact Ec].
Qed.
(** A name made of the word operator and the token behind it keeps the mark of that token. *)
Definition named (t : token) : Prop := k_type t = IDENTIFIER /\ exists s, k_text t = $"operator" ++ s.
Lemma operator_marked l : forall acc, Forall (fun t => marked t \/ named t) acc -> Forall marked l -> Forall (fun t => marked t \/ named t) (operator_pass acc l).
Proof.
  induction l as [|t l IH]; intros acc Ha Hl; cbn [operator_pass]; [by apply Forall_reverse|]. apply Forall_cons in Hl as [Ht Hl].
  destruct acc as [|a acc]; [apply IH; [constructor; [by left|constructor]|done]|]. apply Forall_cons in Ha as [Ha1 Ha2].
  destruct (is_assign_or_op a && is_operator_word t) eqn:E1; [|destruct (is_operator_word a)]; (apply IH; [|done]).
  - constructor; [|done]. left. apply andb_true_iff in E1 as [_ E1]. unfold is_operator_word in E1. apply andb_true_iff in E1 as [E1 _].
    apply ttype_eqb_eq in E1. apply marked_not; [|notin]. cbn. destruct (k_opt t) eqn:E; [|done]. apply Ht in E. rewrite E1 in E. exfalso. revert E. notin.
  - constructor; [|done]. right. split; [done|]. by eexists.
  - constructor; [by left|]. by constructor.
Qed.
Lemma tokenize_marked text ts : tokenize text = Ok ts -> Forall (fun t => marked t \/ named t) ts.
Proof.
  unfold tokenize. destruct (raw_tokens text) as [l| | |] eqn:E; try done. cbn [rbind].
  assert (Hl : Forall marked l).
  { unfold raw_tokens in E. destruct (t_run t_init (text ++ [chr 0])) as [s| | |] eqn:Er; try done. injection E as <-.
    apply Forall_app. split; [|apply Forall_singleton; apply marked_not; [done|notin]]. apply Forall_reverse.
    eapply toks_run; [exact make_token_marked| |exact Er]. constructor. }
  unfold passes. intros H.
  destruct (const_pass (length (merge_pass merge_operator [] (merge_pass merge_assign [] l))) (merge_pass merge_operator [] (merge_pass merge_assign [] l))) as [b| | |] eqn:Eb; try done.
  injection H as <-. apply operator_marked; [constructor|]. eapply const_marked; [|exact Eb].
  apply merge_marked; [|constructor|apply merge_marked; [|constructor|done]].
  - intros x y c ty s. unfold merge_operator. destruct x; try done; destruct y; try done; intros [= <- <- <-]; notin.
  - intros x y c ty s. unfold merge_assign. destruct y; try done; destruct x; try done; intros [= <- <- <-]; notin.
Qed.
