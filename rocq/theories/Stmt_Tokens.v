(** The tokens the tokenizer delivers are as the reader of statements expects them. *)
From Verif Require Import Base Base_Proofs Text_Model Text_Proofs Tok_Model Tok_Spec Tok_Proofs Tok_Proofs2 Tok_Proofs3.
From Verif Require Import Parse_Model Parse_Spec Parse_Brackets Parse_Complete Parse_Accepts Parse_Tokens Stmt_Model Stmt_Spec.

Lemma spelled_const t : k_type t ∈ const_types -> spelled_ok t.
Proof. intros H _. right. exact H. Qed.
Lemma word_spelled s ln cl : let '(c, ty, x, o) := classify_word s in spelled_ok (Token c ty x ln cl o).
Proof.
  destruct (decide (s ∈ [$"catch"; $"finally"; $"default"])) as [D|D].
  - repeat (apply elem_of_cons in D as [->|D]; [vm_compute; left; reflexivity|]). inversion D.
  - unfold classify_word. repeat (match goal with |- context [if ?b then _ else _] => destruct b end;
      [first [intros H; cbn [k_text] in H; contradiction|apply spelled_const; apply ty_in_spec; reflexivity]|]).
    intros H. cbn [k_text] in H. contradiction.
Qed.
Lemma make_spelled s ln cl t : make_token s ln cl = Some t -> spelled_ok t.
Proof.
  unfold make_token. destruct s as [|c s].
  - pose proof (word_spelled [] ln cl) as W. destruct (classify_word []) as [[[a b] x] o]. intros H. injection H as <-. exact W.
  - destruct (classify_char c) as [[[a b]|]|] eqn:E; [|discriminate|].
    + intros H. injection H as <-. intros H. exfalso. cbn [k_text] in H.
      repeat (apply elem_of_cons in H as [H|H]; [injection H as -> _; discriminate E|]). inversion H.
    + pose proof (word_spelled (c :: s) ln cl) as W. destruct (classify_word (c :: s)) as [[[a b] x] o].
      intros H. injection H as <-. exact W.
Qed.
Lemma raw_spelled text raw : raw_tokens text = Ok raw -> Forall spelled_ok raw.
Proof.
  unfold raw_tokens. intros H. ib H. injection H as <-. apply Forall_app. split.
  - apply Forall_reverse. eapply toks_run; [exact make_spelled| |exact E]. constructor.
  - constructor; [|constructor]. intros H. exfalso. cbn in H. repeat (apply elem_of_cons in H as [H|H]; [discriminate H|]). inversion H.
Qed.
Lemma merge_spelled f toks :
  (forall a b c ty s ln cl, f a b = Some (c, ty, s) -> spelled_ok (Token c ty s ln cl false)) ->
  forall acc, Forall spelled_ok acc -> Forall spelled_ok toks -> Forall spelled_ok (merge_pass f acc toks).
Proof.
  intros Hf. induction toks as [|t toks IH]; intros acc Ha Ht; cbn [merge_pass]; [apply Forall_reverse; exact Ha|].
  inversion Ht; subst. destruct acc as [|l acc]; [apply IH; auto|].
  destruct (f (k_type l) (k_type t)) as [[[c ty] s]|] eqn:E; [|apply IH; auto].
  inversion Ha; subst. apply IH; [|assumption]. constructor; [|assumption]. eapply Hf; eauto.
Qed.
Ltac other := let H := fresh in intros H; exfalso; cbn [k_text] in H;
  repeat (apply elem_of_cons in H as [H|H]; [discriminate H|]); inversion H.
Lemma assign_spelled a b c ty s ln cl : merge_assign a b = Some (c, ty, s) -> spelled_ok (Token c ty s ln cl false).
Proof. unfold merge_assign. destruct b; try discriminate. destruct a; try discriminate; intros H; injection H as <- <- <-; other. Qed.
Lemma operator_spelled a b c ty s ln cl : merge_operator a b = Some (c, ty, s) -> spelled_ok (Token c ty s ln cl false).
Proof. unfold merge_operator. destruct a, b; try discriminate; intros H; injection H as <- <- <-; other. Qed.
Lemma const_spelled n : forall l r, Forall spelled_ok l -> const_pass n l = Ok r -> Forall spelled_ok r.
Proof.
  induction n as [|n IH]; intros l r Hl H; destruct (search_any const_patterns l) as [[i k]|] eqn:E.
  - cbn [const_pass] in H. rewrite E in H. discriminate.
  - rewrite const_pass_none in H by exact E. injection H as <-. exact Hl.
  - destruct (search_split l i k E) as (pre & op & mid & post & -> & Hi & Hm & Hne & Hst & Hin).
    erewrite const_pass_some in H by (reflexivity || eassumption). ib H.
    apply Forall_app in Hl as [Hp Hl]. inversion Hl as [|? ? Ho Hr]; subst. apply Forall_app in Hr as [Hmid Hpost].
    eapply IH; [|exact H]. apply Forall_app. split; [exact Hp|]. constructor; [|exact Hpost].
    assert (Eo : k_type op = CONST_INTEGER).
    { destruct k as [|k]; [cbn in Hin; unfold const_patterns in Hin; set_solver|]. cbn [map take] in Hin.
      unfold const_patterns in Hin. set_unfold in Hin. naive_solver. }
    pose proof (combine_type _ _ _ E0) as Ht. rewrite Eo in Ht. apply spelled_const.
    repeat (apply elem_of_cons in Ht as [->|Ht]; [apply ty_in_spec; reflexivity|]). inversion Ht.
  - rewrite const_pass_none in H by exact E. injection H as <-. exact Hl.
Qed.

Theorem tokens_as_expected text raw l :
  raw_tokens text = Ok raw -> (forall t, t ∈ raw -> ~ (k_type t = RESERVED_WORD /\ k_text t = $"operator")) ->
  tokenize text = Ok l -> Forall good l /\ tokens_ok l.
Proof.
  intros Hr Ho H. pose proof (tokens_good _ _ _ Hr Ho H) as G. split; [exact G|]. split.
  { eapply Forall_impl; [exact G|]. intros ? []. assumption. }
  pose proof (raw_spelled _ _ Hr) as Sp.
  unfold tokenize in H. rewrite Hr in H. cbn [rbind] in H. unfold passes in H. ib H. injection H as <-.
  assert (F : Forall fine raw).
  { apply Forall_forall. intros t Ht. split; [exact (proj1 (Forall_forall _ _) (raw_good _ _ Hr) t Ht)|].
    unfold is_operator_word. destruct (ttype_eqb _ _) eqn:E1; [|reflexivity]. destruct (str_eqb _ _) eqn:E2; [|reflexivity].
    destruct (Ho t Ht). split; [apply ttype_eqb_spec; exact E1|apply str_eqb_eq; exact E2]. }
  pose proof E as Es. apply const_spelled in Es; [|apply merge_spelled; [apply operator_spelled|constructor|apply merge_spelled; [apply assign_spelled|constructor|exact Sp]]].
  apply const_fine in E; [|apply merge_fine; [apply operator_fine|constructor|apply merge_fine; [apply assign_fine|constructor|exact F]]].
  rewrite operator_id; [|constructor|exact E]. exact Es.
Qed.
