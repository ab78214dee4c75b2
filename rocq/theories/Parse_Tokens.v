(** The tokens the tokenizer delivers are as the reader of expressions expects them. *)
From Verif Require Import Base Base_Proofs Text_Model Text_Proofs Tok_Model Tok_Spec Tok_Proofs Tok_Proofs2 Tok_Proofs3.
From Verif Require Import Parse_Model Parse_Spec Parse_Brackets Parse_Complete Parse_Accepts.

Lemma good_intro c ty s ln cl o :
  match c with
  | Constant => ty_in ty const_types
  | Assignment => ty_in ty assign_types
  | _ => negb (ty_in ty const_types) && negb (ty_in ty assign_types)
  end && negb (ttype_eqb ty NIL) = true -> good (Token c ty s ln cl o).
Proof.
  intros H. apply andb_true_iff in H as [H Hn]. apply negb_true_iff, ttype_eqb_neq in Hn. split; [|exact Hn].
  assert (D : forall t, t ∈ const_types -> t ∈ assign_types -> False).
  { intros t H1 H2. repeat (apply elem_of_cons in H1 as [H1|H1]; [subst; apply ty_in_spec in H2; discriminate|]). inversion H1. }
  unfold well_made. cbn [k_cat k_type].
  destruct c; try (apply andb_true_iff in H as [H1 H2]; apply negb_true_iff, ty_in_false in H1, H2;
                   split; split; (discriminate || tauto)).
  - apply ty_in_spec in H. split; split; try discriminate; try tauto. intros H2. destruct (D _ H2 H).
  - apply ty_in_spec in H. split; split; try discriminate; try tauto. intros H2. destruct (D _ H H2).
Qed.

Lemma classify_word_good s ln cl : let '(c, ty, x, o) := classify_word s in good (Token c ty x ln cl o).
Proof.
  unfold classify_word. repeat (match goal with |- context [if ?b then _ else _] => destruct b end; [apply good_intro; reflexivity|]).
  apply good_intro; reflexivity.
Qed.

Lemma classify_char_good ch c ty s ln cl : classify_char ch = Some (Some (c, ty)) -> good (Token c ty s ln cl false).
Proof.
  intros H. apply good_intro.
  pose proof (char_forall (fun ch => match classify_char ch with
    | Some (Some (c, ty)) => match c with
        | Constant => ty_in ty const_types
        | Assignment => ty_in ty assign_types
        | _ => negb (ty_in ty const_types) && negb (ty_in ty assign_types)
        end && negb (ttype_eqb ty NIL)
    | _ => true end) ltac:(vm_compute; reflexivity) ch) as F. cbv beta in F. rewrite H in F. exact F.
Qed.
Lemma make_token_good s ln cl t : make_token s ln cl = Some t -> good t.
Proof.
  unfold make_token. destruct s as [|c s].
  - pose proof (classify_word_good [] ln cl) as W. destruct (classify_word []) as [[[a b] x] o]. intros H. injection H as <-. exact W.
  - destruct (classify_char c) as [[[a b]|]|] eqn:E; [|discriminate|].
    + intros H. injection H as <-. eapply classify_char_good; eauto.
    + pose proof (classify_word_good (c :: s) ln cl) as W. destruct (classify_word (c :: s)) as [[[a b] x] o].
      intros H. injection H as <-. exact W.
Qed.

Lemma raw_good text raw : raw_tokens text = Ok raw -> Forall good raw.
Proof.
  unfold raw_tokens. intros H. ib H. injection H as <-. apply Forall_app. split.
  - apply Forall_reverse. eapply toks_run; [exact make_token_good| |exact E]. constructor.
  - constructor; [|constructor]. apply good_intro. reflexivity.
Qed.

(** No [operator] word: behind or in front of one the tokenizer renames tokens but keeps their
    category. *)
Definition fine (t : token) : Prop := good t /\ is_operator_word t = false.

Lemma merge_fine f toks :
  (forall a b c ty s ln cl, f a b = Some (c, ty, s) -> fine (Token c ty s ln cl false)) ->
  forall acc, Forall fine acc -> Forall fine toks -> Forall fine (merge_pass f acc toks).
Proof.
  intros Hf. induction toks as [|t toks IH]; intros acc Ha Ht; cbn [merge_pass]; [apply Forall_reverse; exact Ha|].
  inversion Ht; subst. destruct acc as [|l acc]; [apply IH; auto|].
  destruct (f (k_type l) (k_type t)) as [[[c ty] s]|] eqn:E; [|apply IH; auto].
  inversion Ha; subst. apply IH; [|assumption]. constructor; [|assumption]. eapply Hf; eauto.
Qed.
Lemma assign_fine a b c ty s ln cl : merge_assign a b = Some (c, ty, s) -> fine (Token c ty s ln cl false).
Proof.
  unfold merge_assign. destruct b; try discriminate.
  destruct a; try discriminate; intros H; injection H as <- <- <-; (split; [apply good_intro|]); reflexivity.
Qed.
Lemma operator_fine a b c ty s ln cl : merge_operator a b = Some (c, ty, s) -> fine (Token c ty s ln cl false).
Proof.
  unfold merge_operator. destruct a, b; try discriminate; intros H; injection H as <- <- <-; (split; [apply good_intro|]); reflexivity.
Qed.
Lemma combine_cat ts : forall op op', combine op ts = Ok op' -> k_cat op' = k_cat op.
Proof.
  induction ts as [|t ts IH]; intros op op' H; cbn [combine] in H; [injection H as <-; reflexivity|].
  destruct (k_type t); try discriminate; try (apply IH in H; exact H).
  repeat (destruct (str_eqb _ _); [try discriminate; apply IH in H; exact H|]). apply IH in H. exact H.
Qed.
Lemma const_fine n : forall l r, Forall fine l -> const_pass n l = Ok r -> Forall fine r.
Proof.
  induction n as [|n IH]; intros l r Hl H; destruct (search_any const_patterns l) as [[i k]|] eqn:E.
  - cbn [const_pass] in H. rewrite E in H. discriminate.
  - rewrite const_pass_none in H by exact E. injection H as <-. exact Hl.
  - destruct (search_split l i k E) as (pre & op & mid & post & -> & Hi & Hm & Hne & Hst & Hin).
    erewrite const_pass_some in H by (reflexivity || eassumption). ib H.
    apply Forall_app in Hl as [Hp Hl]. inversion Hl as [|? ? Ho Hr]; subst. apply Forall_app in Hr as [Hmid Hpost].
    eapply IH; [|exact H]. apply Forall_app. split; [exact Hp|]. constructor; [|exact Hpost].
    assert (Eo : k_type op = CONST_INTEGER).
    { destruct k as [|k]; [cbn in Hin; unfold const_patterns in Hin; set_solver|]. cbn [map take] in Hin.
      unfold const_patterns in Hin. set_unfold in Hin. naive_solver. }
    pose proof (combine_cat _ _ _ E0) as Ec. pose proof (combine_type _ _ _ E0) as Ht. rewrite Eo in Ht.
    destruct Ho as [[[Wc Wa] _] _]. assert (Cc : k_cat op = Constant) by (apply Wc; rewrite Eo; apply ty_in_spec; reflexivity).
    destruct a as [c ty x ln cl o]. cbn [k_cat k_type] in *. subst c. rewrite Cc.
    apply elem_of_cons in Ht as [->|Ht]; [split; [apply good_intro|]; reflexivity|].
    apply elem_of_cons in Ht as [->|Ht]; [split; [apply good_intro|]; reflexivity|].
    apply elem_of_cons in Ht as [->|Ht]; [split; [apply good_intro|]; reflexivity|]. inversion Ht.
  - rewrite const_pass_none in H by exact E. injection H as <-. exact Hl.
Qed.
Lemma operator_id toks : forall acc, Forall fine acc -> Forall fine toks -> operator_pass acc toks = reverse acc ++ toks.
Proof.
  induction toks as [|t toks IH]; intros acc Ha Ht; cbn [operator_pass]; [rewrite app_nil_r; reflexivity|].
  inversion Ht as [|? ? [Gt Ot] Hr]; subst. destruct acc as [|l acc]; [rewrite (IH [t]); [reflexivity|apply Forall_cons; split; [split; assumption|constructor]|assumption]|].
  inversion Ha as [|? ? [Gl Ol] Hr2]; subst. rewrite Ot, Ol, andb_false_r.
  rewrite IH; [|apply Forall_cons; split; [split; assumption|exact Ha]|assumption].
  rewrite (reverse_cons (l :: acc) t), <- app_assoc. reflexivity.
Qed.

Theorem tokens_good text raw l :
  raw_tokens text = Ok raw -> (forall t, t ∈ raw -> ~ (k_type t = RESERVED_WORD /\ k_text t = $"operator")) ->
  tokenize text = Ok l -> Forall good l.
Proof.
  intros Hr Ho H. unfold tokenize in H. rewrite Hr in H. cbn [rbind] in H. unfold passes in H. ib H. injection H as <-.
  assert (F : Forall fine raw).
  { apply Forall_forall. intros t Ht. split; [exact (proj1 (Forall_forall _ _) (raw_good _ _ Hr) t Ht)|].
    unfold is_operator_word. destruct (ttype_eqb _ _) eqn:E1; [|reflexivity]. destruct (str_eqb _ _) eqn:E2; [|reflexivity].
    destruct (Ho t Ht). split; [apply ttype_eqb_spec; exact E1|apply str_eqb_eq; exact E2]. }
  apply const_fine in E; [|apply merge_fine; [apply operator_fine|constructor|apply merge_fine; [apply assign_fine|constructor|exact F]]].
  rewrite operator_id; [|constructor|exact E]. cbn. eapply Forall_impl; [exact E|]. intros ? []; assumption.
Qed.
