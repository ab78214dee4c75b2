(** Proofs about the tokenizer model: joining of operators (C17). *)
From Verif Require Import Base Base_Proofs Text_Model Text_Proofs Tok_Model Tok_Spec Tok_Proofs Tok_Proofs2 Tok_Proofs3 Tok_Proofs4 Tok_Proofs6.

(** Adjacent elements of a list are related. *)
Fixpoint chained {A} (R : A -> A -> Prop) (l : list A) : Prop :=
  match l with a :: ((b :: _) as l') => R a b /\ chained R l' | _ => True end.
Lemma chained_cons {A} (R : A -> A -> Prop) a l : chained R (a :: l) <-> (match l with b :: _ => R a b | [] => True end) /\ chained R l.
Proof. destruct l; cbn; naive_solver. Qed.
Lemma chained_app {A} (R : A -> A -> Prop) x a y : chained R (x ++ a :: y) <-> chained R (x ++ [a]) /\ chained R (a :: y).
Proof.
  induction x as [|b x IH]; [cbn; naive_solver|]. change ((b :: x) ++ a :: y) with (b :: (x ++ a :: y)). change ((b :: x) ++ [a]) with (b :: (x ++ [a])).
  rewrite !(chained_cons R b), IH. destruct x; cbn; naive_solver.
Qed.
Lemma chained_elem {A} (R : A -> A -> Prop) x a b y : chained R (x ++ a :: b :: y) -> R a b.
Proof. intros H. apply chained_app in H as [_ H]. apply H. Qed.
Definition unjoined (f : ttype -> ttype -> option (category * ttype * str)) (a b : token) : Prop := f (k_type a) (k_type b) = None.

(** A merge pass leaves no pair it would merge. *)
Lemma merge_pass_chained f l : (forall a b c ty s, f a b = Some (c, ty, s) -> forall x, f x ty = None) ->
  forall acc, chained (fun a b => unjoined f b a) acc -> chained (unjoined f) (merge_pass f acc l).
Proof.
  intros Hf. assert (forall acc, chained (fun a b => unjoined f b a) acc -> chained (unjoined f) (reverse acc)) as Hrev.
  { induction acc as [|a acc IH]; [done|]. intros H. apply chained_cons in H as [H1 H2]. rewrite reverse_cons.
    destruct acc as [|b acc]; [done|]. specialize (IH H2). rewrite reverse_cons, <- app_assoc in *. cbn. by apply chained_app. }
  induction l as [|t l IH]; intros acc Ha; cbn [merge_pass]; [by apply Hrev|].
  destruct acc as [|a acc]; [by apply IH|]. destruct (f (k_type a) (k_type t)) as [[[c ty] s]|] eqn:E.
  - apply IH. apply chained_cons in Ha as [_ Ha]. apply chained_cons. split; [|done]. destruct acc as [|b acc]; [done|].
    unfold unjoined. cbn. by eapply Hf.
  - apply IH. by apply chained_cons.
Qed.
(** A merge pass keeps another relation on neighbours if its results respect it. *)
Lemma merge_pass_keeps f (R : ttype -> ttype -> Prop) l :
  (forall a b c ty s, f a b = Some (c, ty, s) -> (forall x, R x a -> R x ty) /\ (forall y, R b y -> R ty y)) ->
  forall acc, chained (fun a b => R (k_type a) (k_type b)) (reverse acc ++ l) ->
  chained (fun a b => R (k_type a) (k_type b)) (merge_pass f acc l).
Proof.
  intros Hf. induction l as [|t l IH]; intros acc Ha; cbn [merge_pass]; [by rewrite app_nil_r in Ha|].
  destruct acc as [|a acc]; [by apply IH|]. rewrite reverse_cons, <- app_assoc in Ha. cbn [app] in Ha.
  destruct (f (k_type a) (k_type t)) as [[[c ty] s]|] eqn:E; apply IH.
  - rewrite reverse_cons, <- app_assoc. cbn [app]. apply Hf in E as [E1 E2]. apply chained_app in Ha as [H1 H2].
    apply chained_cons in H2 as [_ H2]. apply chained_app. split.
    + destruct (reverse acc) as [|z q _] using rev_ind; [done|]. rewrite <- app_assoc in *. cbn [app] in *.
      apply chained_app in H1 as [H1 H3]. apply chained_app. split; [done|]. cbn in *. naive_solver.
    + apply chained_cons in H2 as [H2 H3]. apply chained_cons. split; [|done]. destruct l; [done|]. cbn. by apply E2.
  - rewrite !reverse_cons, <- !app_assoc. done.
Qed.
Lemma merge_assign_none_result a b c ty s : merge_assign a b = Some (c, ty, s) -> forall x, merge_assign x ty = None.
Proof. intros H x. apply merge_assign_result in H as (H & _). by destruct ty. Qed.
Lemma merge_operator_none_result a b c ty s : merge_operator a b = Some (c, ty, s) -> forall x, merge_operator x ty = None.
Proof. intros H x. apply merge_operator_result in H as (H & _). destruct (merge_operator x ty) eqn:E; [by apply H in E|done]. Qed.
Lemma merge_operator_assign a b c ty s : merge_operator a b = Some (c, ty, s) ->
  (forall x, merge_assign x ty = None) /\ (forall y, merge_assign ty y = None).
Proof.
  unfold merge_operator. destruct a; try done; destruct b; try done; intros H; injection H as <- <- <-;
    (split; [done|]); intros y; by destruct y.
Qed.
Definition merged (l : list token) : list token := merge_pass merge_operator [] (merge_pass merge_assign [] l).
Definition no_join (a b : token) : Prop := unjoined merge_assign a b /\ unjoined merge_operator a b.
Lemma chained_and {A} (R S : A -> A -> Prop) l : chained R l -> chained S l -> chained (fun a b => R a b /\ S a b) l.
Proof. induction l as [|a l IH]; [done|]. rewrite !chained_cons. intros [H1 H2] [H3 H4]. split; [destruct l; done|by apply IH]. Qed.
Lemma merged_chained l : chained no_join (merged l).
Proof.
  unfold merged. apply chained_and.
  - apply (merge_pass_keeps merge_operator (fun a b => merge_assign a b = None)).
    + intros a b c ty s H. apply merge_operator_assign in H as [H1 H2]. split; intros; done.
    + cbn. apply (merge_pass_chained merge_assign l); [apply merge_assign_none_result|done].
  - apply merge_pass_chained; [apply merge_operator_none_result|done].
Qed.
(** Numbers and identifiers never take part. *)
Lemma neutral_join t u : k_type t ∈ [CONST_INTEGER; CONST_DOUBLE; CONST_FLOAT; IDENTIFIER] -> no_join t u /\ no_join u t.
Proof.
  intros H. unfold no_join, unjoined, merge_assign, merge_operator.
  repeat (apply elem_of_cons in H as [->|H]; [repeat split; by destruct (k_type u)|]). by apply elem_of_nil in H.
Qed.
Lemma const_pass_chained n l r : const_pass n l = Ok r -> chained no_join l -> chained no_join r.
Proof.
  revert n l r. apply (const_pass_ind (fun l r => chained no_join l -> chained no_join r)); [done|].
  intros pre op mid post op' r IH Hne Ht _ H. apply IH. clear IH.
  assert (k_type op' ∈ [CONST_INTEGER; CONST_DOUBLE; CONST_FLOAT; IDENTIFIER]) as Ht' by (set_unfold; naive_solver).
  apply chained_app in H as [H1 H2]. apply chained_app. split.
  - destruct pre as [|z pre _] using rev_ind; [done|]. rewrite <- app_assoc in *. cbn [app] in *. apply chained_app in H1 as [H1 _].
    apply chained_app. split; [done|]. cbn. split; [|done]. exact (proj2 (neutral_join _ _ Ht')).
  - destruct (exists_last Hne) as (m & z & ->). rewrite <- app_assoc in H2. cbn [app] in H2.
    rewrite app_comm_cons in H2. apply chained_app in H2 as [_ H2]. apply chained_cons in H2 as [_ H2].
    apply chained_cons. split; [|done]. destruct post; [done|]. exact (proj1 (neutral_join _ _ Ht')).
Qed.
Lemma operator_pass_chained l : forall acc, chained no_join (reverse acc ++ l) -> chained no_join (operator_pass acc l).
Proof.
  induction l as [|t l IH]; intros acc Ha; cbn [operator_pass]; [by rewrite app_nil_r in Ha|].
  destruct acc as [|a acc]; [by apply IH|]. rewrite reverse_cons, <- app_assoc in Ha. cbn [app] in Ha.
  assert (forall x, chained no_join (operator_pass (set_text (set_type t IDENTIFIER) x :: acc) l)) as H.
  { intros x. apply IH. rewrite reverse_cons, <- app_assoc. cbn [app]. set (u := set_text (set_type t IDENTIFIER) x).
    assert (k_type u ∈ [CONST_INTEGER; CONST_DOUBLE; CONST_FLOAT; IDENTIFIER]) as Hu by (cbn; set_solver).
    apply chained_app in Ha as [H1 H2]. apply chained_app. split.
    - destruct (reverse acc) as [|z q _] using rev_ind; [done|]. rewrite <- app_assoc in *. cbn [app] in *. apply chained_app in H1 as [H1 _].
      apply chained_app. split; [done|]. cbn. split; [|done]. exact (proj2 (neutral_join _ _ Hu)).
    - apply chained_cons in H2 as [_ H2]. apply chained_cons in H2 as [_ H2]. apply chained_cons. split; [|done].
      destruct l; [done|]. exact (proj1 (neutral_join _ _ Hu)). }
  destruct (is_assign_or_op a && is_operator_word t); [done|]. destruct (is_operator_word a); [done|].
  apply IH. by rewrite !reverse_cons, <- !app_assoc.
Qed.
Lemma tokenize_chained text l : tokenize text = Ok l -> chained no_join l.
Proof.
  unfold tokenize. intros H. destruct (raw_tokens text) as [r| | |]; try done. cbn [rbind] in H. unfold passes in H.
  fold (merged r) in H. destruct (const_pass (length (merged r)) (merged r)) as [b| | |] eqn:E; try done. cbn in H. injection H as <-.
  apply operator_pass_chained. cbn. eapply const_pass_chained; [exact E|]. apply merged_chained.
Qed.
Lemma joined_table a b : (a, b) ∈ joined_assign ++ joined_operator -> merge_assign a b <> None \/ merge_operator a b <> None.
Proof.
  unfold joined_assign, joined_operator. cbn [app]. intros H.
  repeat (apply elem_of_cons in H as [H|H]; [injection H as -> ->; by (left + right)|]). by apply elem_of_nil in H.
Qed.

(** ** Texts *)
(** The texts of tokens that can be merged. *)
Definition op_text (ty : ttype) : option str :=
  match ty with
  | ASSIGN => Some ($"=") | COMPARE_EQUAL => Some ($"==") | COMPARE_UNEQUAL => Some ($"!=") | OPERATOR_NOT => Some ($"!")
  | BITAND => Some ($"&") | BITOR => Some ($"|") | COMPARE_GREATER => Some ($">") | COMPARE_LESS => Some ($"<")
  | MATH_ADDITION => Some ($"+") | MATH_DIVIDE => Some ($"/") | MATH_MODULO => Some ($"%") | MATH_MULTIPLY => Some ($"*")
  | MATH_SUBTRACT => Some ($"-") | OPERATOR_SCOPE => Some ($".") | BRACKET_OPEN => Some ($"[") | BRACKET_CLOSE => Some ($"]")
  | BITCOMPLEMENT => Some ($"~") | GREATER => Some ($">") | LESS => Some ($"<")
  | ASSIGN_MODULO => Some ($"*=")
  | _ => None
  end.
Definition text_ok (t : token) : Prop := match op_text (k_type t) with Some x => k_text t = x | None => True end.
Lemma merge_texts f l : 
  (forall a b c ty s, f a b = Some (c, ty, s) -> exists x y, op_text a = Some x /\ op_text b = Some y /\ a <> ASSIGN_MODULO /\ b <> ASSIGN_MODULO /\
     written (Token c ty s 0 0 false) = x ++ y /\ (match op_text ty with Some z => s = z | None => True end)) ->
  forall acc, Forall text_ok acc -> Forall text_ok l ->
  Forall text_ok (merge_pass f acc l) /\ concat (map written (merge_pass f acc l)) = concat (map written (reverse acc ++ l)).
Proof.
  intros Hf. induction l as [|t l IH]; intros acc Ha Hl; cbn [merge_pass].
  { rewrite app_nil_r. split; [by apply Forall_reverse|done]. }
  apply Forall_cons in Hl as [Ht Hl]. destruct acc as [|a acc]; [apply (IH [t]); auto|].
  apply Forall_cons in Ha as [Ha1 Ha2].
  destruct (f (k_type a) (k_type t)) as [[[c ty] s]|] eqn:E.
  - apply Hf in E as (x & y & Ex & Ey & Hm1 & Hm2 & Hw & Hs). 
    destruct (IH (Token c ty s (k_line t) (k_col t) false :: acc)) as [H1 H2]; [constructor; [done|done]|done|].
    split; [done|]. rewrite H2, !reverse_cons, !map_app, !concat_app. cbn [map concat]. rewrite !app_nil_r, <- !app_assoc. f_equal.
    assert (written a = x) as ->. { unfold text_ok in Ha1. rewrite Ex in Ha1. unfold written. by destruct (k_type a). }
    assert (written t = y) as ->. { unfold text_ok in Ht. rewrite Ey in Ht. unfold written. by destruct (k_type t). }
    change (written (Token c ty s (k_line t) (k_col t) false)) with (written (Token c ty s 0 0 false)). by rewrite Hw, <- app_assoc.
  - destruct (IH (t :: a :: acc)) as [H1 H2]; [auto|done|]. split; [done|]. rewrite H2, !reverse_cons, <- !app_assoc. done.
Qed.
Lemma merged_texts l : Forall text_ok l -> Forall text_ok (merged l) /\ concat (map written (merged l)) = concat (map written l).
Proof.
  intros H. unfold merged.
  destruct (merge_texts merge_assign l) with (acc := @nil token) as [H1 H2]; [|constructor|done|].
  { intros a b c ty s Hf. pose proof (merge_assign_second _ _ _ Hf) as ->. cbn in Hf.
    destruct a; try discriminate; injection Hf as <- <- <-; eexists _, _; by repeat split. }
  destruct (merge_texts merge_operator (merge_pass merge_assign [] l)) with (acc := @nil token) as [H3 H4]; [|constructor|done|].
  { intros a b c ty s Hf. unfold merge_operator in Hf.
    destruct a; try discriminate; destruct b; try discriminate; injection Hf as <- <- <-; eexists _, _; by repeat split. }
  split; [done|]. by rewrite H4.
Qed.
(** Tokens the scanner makes carry the text of their type. *)
Definition tok_head_ok (tok : str) : Prop := match tok with c :: _ => is_delim c = false \/ c = chr 34 | [] => True end.
Lemma make_token_text_ok x ln cl t : (tok_head_ok x \/ exists c, x = [c]) -> make_token x ln cl = Some t -> text_ok t.
Proof.
  intros Hx. unfold make_token.
  assert (forall w ct ty txt o, classify_word w = (ct, ty, txt, o) -> op_text ty = None) as Hw.
  { intros w ct ty txt o H. unfold classify_word in H.
    repeat match type of H with context [if ?b then _ else _] => destruct b; [by injection H as <- <- <- <-|] end. by injection H as <- <- <- <-. }
  destruct (match x with [] => None | c :: _ => classify_char c end) as [[[ct ty]|]|] eqn:E; intros H; try done.
  - injection H as <-. unfold text_ok. cbn. destruct Hx as [Hx|[c ->]].
    + destruct x as [|c x]; [done|]. destruct Hx as [Hx| ->]; [|done]. rewrite word_char_none in E by done. done.
    + pose proof (char_forall (fun c => match classify_char c with Some (Some (_, ty)) => match op_text ty with Some z => bool_decide ([c] = z) | None => true end | _ => true end) ltac:(by vm_compute) c) as F.
      cbn beta in F. rewrite E in F. destruct (op_text ty); [|done]. by apply bool_decide_eq_true in F.
  - destruct (classify_word x) as [[[ct ty] txt] o] eqn:Ec. injection H as <-. unfold text_ok. cbn. by rewrite (Hw _ _ _ _ _ Ec).
Qed.
Lemma push_text_ok x ln cl l : (tok_head_ok x \/ exists c, x = [c]) -> Forall text_ok l -> Forall text_ok (push_opt (make_token x ln cl) l).
Proof. intros Hx Hl. destruct (make_token x ln cl) eqn:E; cbn; [|done]. constructor; [by eapply make_token_text_ok|done]. Qed.
Lemma flush_text_ok tok ln cl l : tok_head_ok tok -> Forall text_ok l -> Forall text_ok (flush tok ln cl l).
Proof. intros Hx Hl. destruct tok; [done|]. apply push_text_ok; [by left|done]. Qed.
Lemma tok_head_app tok x : tok_head_ok tok -> tok <> [] -> tok_head_ok (tok ++ x).
Proof. by destruct tok. Qed.
Lemma text_ok_step s p c s' : at_place s p -> tok_head_ok (t_tok s) -> Forall text_ok (t_toks s) -> t_step s c = Ok s' ->
  tok_head_ok (t_tok s') /\ Forall text_ok (t_toks s').
Proof.
  destruct s as [toks tok esc mlc slc st prev ln cl].
  destruct p as [sl| | | |sr]; intros Hp Hk Ht H; unfold at_place in Hp; cbn [t_esc t_mlc t_slc t_str t_prev t_tok t_toks] in *;
    destruct_and!; subst.
  - destruct (ckind_of prev c) as [| -> | -> | | |c Hw|c Hd Hw H34 Ho|c Hd H0].
    + rewrite code_hash in H. by injection H as <-.
    + rewrite code_slash2 in H. destruct toks; [done|]. injection H as <-. split; [done|]. by apply Forall_inv_tail in Ht.
    + rewrite code_slashstar in H. destruct toks; [done|]. injection H as <-. split; [done|]. by apply Forall_inv_tail in Ht.
    + rewrite code_quote in H. injection H as <-. cbn [t_tok t_toks]. split; [|done]. destruct tok; [by right|by apply tok_head_app].
    + rewrite code_nul in H. by injection H as <-.
    + rewrite code_white in H by done. injection H as <-. destruct (bool_decide (c = chr 10)); (split; [done|]); by apply flush_text_ok.
    + rewrite code_delim in H by done. injection H as <-. split; [done|]. apply push_text_ok; [right; eauto|]. by apply flush_text_ok.
    + rewrite code_word in H by done. injection H as <-. cbn [t_tok t_toks]. split; [|done]. destruct tok; [by left|by apply tok_head_app].
  - rewrite string_step in H by done. injection H as <-. 
    assert (tok_head_ok (tok ++ [c])) by (by apply tok_head_app).
    case_bool_decide; [|case_bool_decide; [done|case_bool_decide; [done|by case_bool_decide]]]. split; [done|]. apply push_text_ok; [by left|done].
  - rewrite escape_step in H. injection H as <-. split; [by apply tok_head_app|done].
  - rewrite line_step in H. injection H as <-. by case_bool_decide.
  - rewrite block_step in H. injection H as <-. destruct (bool_decide (prev = chr 42) && bool_decide (c = chr 47)); [done|]. by destruct (bool_decide (c = chr 10)).
Qed.
Lemma text_ok_run text : forall s p s', at_place s p -> tok_head_ok (t_tok s) -> Forall text_ok (t_toks s) -> t_run s text = Ok s' -> Forall text_ok (t_toks s').
Proof.
  induction text as [|c text IH]; intros s p s' Hp Hk Ht H; cbn in H; [by injection H as <-|].
  destruct (t_step s c) as [s1| | |] eqn:E; try done. cbn in H. destruct (text_ok_step _ _ _ _ Hp Hk Ht E). eapply IH; [by eapply place_step|done..].
Qed.
Lemma raw_text_ok text raw : raw_tokens text = Ok raw -> Forall text_ok raw.
Proof.
  unfold raw_tokens. intros H. destruct (t_run t_init (text ++ [chr 0])) as [s| | |] eqn:E; try done. cbn in H. injection H as <-.
  apply Forall_app. split; [|by repeat constructor]. apply Forall_reverse. eapply text_ok_run; [exact at_init|done|constructor|exact E].
Qed.
Lemma make_no_modassign x ln cl t : make_token x ln cl = Some t -> k_type t <> ASSIGN_MODULO.
Proof.
  unfold make_token. destruct (match x with [] => None | c :: _ => classify_char c end) as [[[ct ty]|]|] eqn:E; intros H; try done.
  - injection H as <-. cbn. destruct x as [|c x]; [done|]. pose proof (char_forall (fun c => match classify_char c with
      | Some (Some (_, ty)) => negb (ttype_eqb ty ASSIGN_MODULO) | _ => true end) ltac:(by vm_compute) c) as F.
    cbn beta in F. rewrite E in F. intros ->. by vm_compute in F.
  - destruct (classify_word x) as [[[ct ty] txt] o] eqn:Ec. injection H as <-. cbn. intros ->. unfold classify_word in Ec.
    repeat match type of Ec with context [if ?b then _ else _] => destruct b; [discriminate Ec|] end. discriminate Ec.
Qed.
Lemma raw_written text raw : raw_tokens text = Ok raw -> map written raw = map k_text raw.
Proof.
  intros H. assert (Forall (fun t => k_type t <> ASSIGN_MODULO) raw) as Hf.
  { unfold raw_tokens in H. destruct (t_run t_init (text ++ [chr 0])) as [s| | |] eqn:E; try done. cbn in H. injection H as <-.
    apply Forall_app. split; [|by repeat constructor]. apply Forall_reverse. eapply toks_run; [exact make_no_modassign| |exact E]. constructor. }
  clear H. induction Hf as [|t l Ht Hf IH]; [done|]. cbn. f_equal; [|done]. unfold written. by destruct (k_type t).
Qed.
(** Tokens that take no part in joining stay. *)
Lemma merge_pass_filter f (P : token -> Prop) `{forall t, Decision (P t)} l :
  (forall a b x, f (k_type a) (k_type b) = Some x -> ~ P a /\ ~ P b) ->
  (forall a b c ty s ln cl, f a b = Some (c, ty, s) -> ~ P (Token c ty s ln cl false)) ->
  forall acc, filter P (merge_pass f acc l) = filter P (reverse acc ++ l).
Proof.
  intros H1 H2. induction l as [|t l IH]; intros acc; cbn [merge_pass]; [by rewrite app_nil_r|].
  destruct acc as [|a acc]; [apply (IH [t])|]. destruct (f (k_type a) (k_type t)) as [[[c ty] s]|] eqn:E.
  - rewrite IH, !reverse_cons, !filter_app. pose proof (H1 _ _ _ E) as [Ha Ht].
    pose proof (H2 _ _ _ _ _ (k_line t) (k_col t) E) as Hn. rewrite !filter_cons_False by done. done.
  - by rewrite IH, !reverse_cons, <- !app_assoc.
Qed.
