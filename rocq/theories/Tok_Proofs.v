(** Proofs about the tokenizer model. *)
From Verif Require Import Base Base_Proofs Text_Model Text_Proofs Tok_Model Tok_Spec.

Lemma of_tnum_tnum t : of_tnum (tnum t) = t.
Proof. by destruct t. Qed.
Lemma tnum_inj a b : tnum a = tnum b -> a = b.
Proof. intros H. by rewrite <- (of_tnum_tnum a), H, of_tnum_tnum. Qed.
Lemma ttype_eqb_eq a b : ttype_eqb a b = true <-> a = b.
Proof. unfold ttype_eqb. rewrite N.eqb_eq. split; [apply tnum_inj | by intros ->]. Qed.
#[global] Instance ttype_eq_dec : EqDecision ttype.
Proof.
  intros a b. destruct (ttype_eqb a b) eqn:E.
  - left. by apply ttype_eqb_eq.
  - right. intros H. apply ttype_eqb_eq in H. congruence.
Defined.

(** ** Basic character facts *)
Ltac chars f := 
  let F := fresh "F" in
  pose proof (char_forall f ltac:(by vm_compute)) as F.
Lemma is_white_iff c : is_white c = true <-> c = chr 9 \/ c = chr 10 \/ c = chr 13 \/ c = chr 32.
Proof. unfold is_white, mem, white_chars. rewrite bool_decide_eq_true. set_solver. Qed.

(** What the state records about the place. *)
Definition at_place (s : tstate) (p : place) : Prop :=
  match p with
  | Code sl => t_esc s = false /\ t_mlc s = false /\ t_slc s = false /\ t_str s = false /\
               bool_decide (t_prev s = chr 47) = sl
  | InString => t_esc s = false /\ t_mlc s = false /\ t_slc s = false /\ t_str s = true /\ t_tok s <> []
  | InEscape => t_esc s = true /\ t_mlc s = false /\ t_slc s = false /\ t_str s = true /\ t_tok s <> []
  | InLine => t_esc s = false /\ t_mlc s = false /\ t_slc s = true /\ t_str s = false
  | InBlock st => t_esc s = false /\ t_mlc s = true /\ t_slc s = false /\ t_str s = false /\
                  bool_decide (t_prev s = chr 42) = st
  end.

Lemma quote_delim : is_delim (chr 34) = true.
Proof. by vm_compute. Qed.

(** ** The step function, case by case *)
Notation cst toks tok prev ln cl := (TState toks tok false false false false prev ln cl).
Definition flush (tok : str) (ln cl : N) (toks : list token) : list token :=
  match tok with [] => toks | _ => push_opt (make_token tok ln cl) toks end.
Ltac bt H := rewrite (bool_decide_eq_true_2 _ H).
Ltac bf H := rewrite (bool_decide_eq_false_2 _ H).
Ltac open_step := unfold t_step, open_comment; cbn [t_toks t_tok t_esc t_mlc t_slc t_str t_prev t_line t_col negb andb].
Ltac open_read := unfold read_char; cbn [t_toks t_tok t_esc t_mlc t_slc t_str t_prev t_line t_col negb andb orb rbind].
Ltac close_step := cbn [t_toks t_tok t_esc t_mlc t_slc t_str t_prev t_line t_col negb andb orb rbind].

Ltac bfs := repeat match goal with
  | H : ?c <> chr ?n |- context [bool_decide (?c = chr ?n)] => rewrite (bool_decide_eq_false_2 (c = chr n) H) end.
(** The comment test fails. *)
Definition opens (prev c : ascii) : bool :=
  bool_decide (c = chr 35) || (bool_decide (prev = chr 47) && (bool_decide (c = chr 47) || bool_decide (c = chr 42))).
Lemma open_comment_no toks tok prev ln cl c : opens prev c = false ->
  open_comment (cst toks tok prev ln cl) c = Ok (false, false, toks).
Proof.
  unfold opens. intros H. apply orb_false_iff in H as [H1 H2]. unfold open_comment.
  cbn [t_toks t_tok t_esc t_mlc t_slc t_str t_prev t_line t_col negb andb]. rewrite H1.
  destruct (bool_decide (prev = chr 47)); [|done]. cbn [andb] in *.
  apply orb_false_iff in H2 as [-> ->]. done.
Qed.
Lemma white_facts c : is_white c = true -> c <> chr 0 /\ c <> chr 34 /\ c <> chr 92 /\ c <> chr 35 /\ c <> chr 47 /\ c <> chr 42 /\ is_delim c = true.
Proof. intros H. apply is_white_iff in H as [->|[->|[->| ->]]]; by repeat split. Qed.
Lemma white_opens prev c : is_white c = true -> opens prev c = false.
Proof.
  intros H. apply white_facts in H as (? & ? & ? & ? & ? & ? & ?). unfold opens.
  rewrite !(bool_decide_eq_false_2 (c = _)) by done. by rewrite andb_false_r.
Qed.
Lemma white_no_token c ln cl : is_white c = true -> make_token [c] ln cl = None.
Proof. intros H. unfold make_token, classify_char. by rewrite H. Qed.

Lemma code_white toks tok prev ln cl c : is_white c = true ->
  t_step (cst toks tok prev ln cl) c =
  Ok (if bool_decide (c = chr 10) then cst (flush tok ln cl toks) [] (chr 0) (ln + 1)%N 1%N
      else cst (flush tok ln cl toks) [] c ln (cl + 1)%N).
Proof.
  intros H. pose proof (white_facts c H) as (H0 & H34 & H92 & H35 & H47 & H42 & Hd).
  unfold t_step. rewrite (open_comment_no _ _ _ _ _ _ (white_opens prev c H)). open_read.
  rewrite (bool_decide_eq_false_2 _ H34), (bool_decide_eq_false_2 _ H0), Hd. cbn [negb andb orb].
  rewrite ?andb_false_r. 
  destruct tok; cbn [flush]; rewrite (bool_decide_eq_false_2 _ H0), (white_no_token c ln cl H); cbn [push_opt];
    by destruct (bool_decide (c = chr 10)).
Qed.
Lemma code_delim toks tok prev ln cl c :
  is_delim c = true -> is_white c = false -> c <> chr 34 -> opens prev c = false ->
  t_step (cst toks tok prev ln cl) c = Ok (cst (push_opt (make_token [c] ln cl) (flush tok ln cl toks)) [] c ln (cl + 1)%N).
Proof.
  intros Hd Hw H34 Ho. unfold t_step. rewrite (open_comment_no _ _ _ _ _ _ Ho). open_read.
  assert (c <> chr 0) as H0 by (intros ->; by vm_compute in Hd).
  assert (c <> chr 10) as H10 by (intros ->; by vm_compute in Hw).
  rewrite (bool_decide_eq_false_2 _ H34), (bool_decide_eq_false_2 _ H0), Hd. cbn [negb andb orb].
  rewrite ?andb_false_r.
  destruct tok; cbn [flush]; by rewrite (bool_decide_eq_false_2 _ H0), (bool_decide_eq_false_2 _ H10).
Qed.
Lemma code_word toks tok prev ln cl c :
  is_delim c = false -> c <> chr 0 ->
  t_step (cst toks tok prev ln cl) c = Ok (cst toks (tok ++ [c]) c ln (cl + 1)%N).
Proof.
  intros Hd H0. assert (opens prev c = false) as Ho.
  { unfold opens. rewrite !(bool_decide_eq_false_2 (c = _)); [by rewrite andb_false_r|intros ->; by vm_compute in Hd..]. }
  unfold t_step. rewrite (open_comment_no _ _ _ _ _ _ Ho). open_read.
  assert (c <> chr 34) as H34 by (intros ->; by vm_compute in Hd).
  assert (c <> chr 10) as H10 by (intros ->; by vm_compute in Hd).
  rewrite (bool_decide_eq_false_2 _ H34), (bool_decide_eq_false_2 _ H0), Hd. cbn [negb andb orb].
  rewrite (bool_decide_eq_false_2 _ H10). done.
Qed.
Lemma code_nul toks tok prev ln cl :
  t_step (cst toks tok prev ln cl) (chr 0) = Ok (cst toks tok (chr 0) ln (cl + 1)%N).
Proof. 
  unfold t_step. rewrite open_comment_no by (unfold opens; cbn; by rewrite ?andb_false_r). done.
Qed.
Lemma code_quote toks tok prev ln cl :
  t_step (cst toks tok prev ln cl) (chr 34) = Ok (TState toks (tok ++ [chr 34]) false false false true (chr 34) ln (cl + 1)%N).
Proof.
  unfold t_step. rewrite open_comment_no by (unfold opens; cbn; by rewrite ?andb_false_r). done.
Qed.
Lemma code_hash toks tok prev ln cl :
  t_step (cst toks tok prev ln cl) (chr 35) = Ok (TState toks tok false false true false (chr 35) ln (cl + 1)%N).
Proof. done. Qed.
Lemma code_slash2 toks tok ln cl :
  t_step (cst toks tok (chr 47) ln cl) (chr 47) =
  let! l := pop_back toks in Ok (TState l tok false false true false (chr 47) ln (cl + 1)%N).
Proof. by destruct toks. Qed.
Lemma code_slashstar toks tok ln cl :
  t_step (cst toks tok (chr 47) ln cl) (chr 42) =
  let! l := pop_back toks in Ok (TState l tok false true false false (chr 42) ln (cl + 1)%N).
Proof. by destruct toks. Qed.
Lemma line_step toks tok prev ln cl c :
  t_step (TState toks tok false false true false prev ln cl) c =
  Ok (if bool_decide (c = chr 10) then cst toks tok (chr 0) (ln + 1)%N 1%N
      else TState toks tok false false true false c ln (cl + 1)%N).
Proof. open_step. close_step. by destruct (bool_decide (c = chr 10)). Qed.
Lemma block_step toks tok prev ln cl c :
  t_step (TState toks tok false true false false prev ln cl) c =
  Ok (if bool_decide (prev = chr 42) && bool_decide (c = chr 47) then cst toks tok (chr 47) ln (cl + 1)%N
      else if bool_decide (c = chr 10) then TState toks tok false true false false (chr 0) (ln + 1)%N 1%N
      else TState toks tok false true false false c ln (cl + 1)%N).
Proof.
  open_step. close_step. destruct (bool_decide (prev = chr 42)); cbn [andb]; [|by destruct (bool_decide (c = chr 10))].
  destruct (decide (c = chr 47)) as [->|H]; [done|]. rewrite (bool_decide_eq_false_2 _ H). by destruct (bool_decide (c = chr 10)).
Qed.
Lemma string_step toks tok prev ln cl c : tok <> [] ->
  t_step (TState toks tok false false false true prev ln cl) c =
  Ok (if bool_decide (c = chr 34) then cst (push_opt (make_token (tok ++ [c]) ln cl) toks) [] (chr 0) ln (cl + 1)%N
      else if bool_decide (c = chr 92) then TState toks tok true false false true c ln (cl + 1)%N
      else if bool_decide (c = chr 0) then TState toks tok false false false true c ln (cl + 1)%N
      else if bool_decide (c = chr 10) then TState toks (tok ++ [c]) false false false true (chr 0) (ln + 1)%N 1%N
      else TState toks (tok ++ [c]) false false false true c ln (cl + 1)%N).
Proof.
  intros Ht. open_step. rewrite ?andb_false_r. cbn [andb rbind orb]. open_read.
  case_bool_decide as H34; cbn [negb andb orb].
  - subst c. change (is_delim (chr 34)) with true. change (bool_decide (chr 34 = chr 0)) with false. cbn [negb andb].
    destruct tok; [done|]. done.
  - case_bool_decide as H92; cbn [negb andb orb].
    + subst. done.
    + case_bool_decide as H0; cbn [negb andb orb].
      * subst c. done.
      * by destruct (bool_decide (c = chr 10)).
Qed.
Lemma escape_step toks tok prev ln cl c :
  t_step (TState toks tok true false false true prev ln cl) c =
  Ok (TState toks (tok ++ [c]) false false false true (chr 0) ln (cl + 1)%N).
Proof. open_step. rewrite ?andb_false_r. done. Qed.

(** Characters, as the scanner in ordinary code distinguishes them. *)
Inductive ckind (prev : ascii) : ascii -> Prop :=
| ck_hash : ckind prev (chr 35)
| ck_slash : prev = chr 47 -> ckind prev (chr 47)
| ck_star : prev = chr 47 -> ckind prev (chr 42)
| ck_quote : ckind prev (chr 34)
| ck_nul : ckind prev (chr 0)
| ck_white c : is_white c = true -> ckind prev c
| ck_delim c : is_delim c = true -> is_white c = false -> c <> chr 34 -> opens prev c = false -> ckind prev c
| ck_word c : is_delim c = false -> c <> chr 0 -> ckind prev c.
Lemma ckind_of prev c : ckind prev c.
Proof.
  destruct (decide (c = chr 35)) as [->|H35]; [constructor|].
  destruct (decide (c = chr 34)) as [->|H34]; [constructor|].
  destruct (decide (c = chr 0)) as [->|H0]; [constructor|].
  destruct (is_white c) eqn:Hw; [by apply ck_white|].
  destruct (is_delim c) eqn:Hd; [|by apply ck_word].
  destruct (opens prev c) eqn:Ho; [|by apply ck_delim].
  unfold opens in Ho. rewrite (bool_decide_eq_false_2 _ H35) in Ho. cbn in Ho.
  apply andb_true_iff in Ho as [Hp Ho]. apply bool_decide_eq_true in Hp.
  apply orb_true_iff in Ho as [Ho|Ho]; apply bool_decide_eq_true in Ho; subst; by constructor.
Qed.
Lemma next_code sl c : next_place (Code sl) c =
  if bool_decide (c = chr 35) then InLine
  else if sl && bool_decide (c = chr 47) then InLine
  else if sl && bool_decide (c = chr 42) then InBlock true
  else if bool_decide (c = chr 34) then InString
  else Code (bool_decide (c = chr 47)).
Proof. done. Qed.
Lemma place_step s p c s' : at_place s p -> t_step s c = Ok s' -> at_place s' (next_place p c).
Proof.
  destruct s as [toks tok esc mlc slc st prev ln cl].
  destruct p as [sl| | | |sr]; intros Hp H; unfold at_place in Hp; cbn [t_esc t_mlc t_slc t_str t_prev t_tok] in Hp;
    destruct_and!; subst.
  - rewrite next_code. destruct (ckind_of prev c) as [| -> | -> | | |c Hw|c Hd Hw H34 Ho|c Hd H0].
    + rewrite code_hash in H. by injection H as <-.
    + rewrite code_slash2 in H. destruct toks; [done|]. by injection H as <-.
    + rewrite code_slashstar in H. destruct toks; [done|]. by injection H as <-.
    + rewrite code_quote in H. injection H as <-. cbn. rewrite ?andb_false_r. cbn. repeat split. by destruct tok.
    + rewrite code_nul in H. injection H as <-. cbn. rewrite ?andb_false_r. done.
    + rewrite code_white in H by done. apply white_facts in Hw as (? & ? & ? & ? & ? & ? & ?). injection H as <-.
      bfs. rewrite ?andb_false_r.
      destruct (bool_decide (c = chr 10)); cbn [at_place t_esc t_mlc t_slc t_str t_prev t_tok]; bfs; done.
    + rewrite code_delim in H by done. injection H as <-. unfold opens in Ho. apply orb_false_iff in Ho as [-> Ho].
      rewrite (bool_decide_eq_false_2 _ H34). cbn [at_place t_esc t_mlc t_slc t_str t_prev t_tok].
      destruct (bool_decide (prev = chr 47)); [|done]. cbn [andb] in *. apply orb_false_iff in Ho as [E1 E2].
      rewrite E1, E2. repeat split. exact E1.
    + rewrite code_word in H by done. injection H as <-.
      rewrite !(bool_decide_eq_false_2 (c = _)); [|intros ->; by vm_compute in Hd..]. rewrite ?andb_false_r. cbn.
      rewrite bool_decide_eq_false_2; [done|intros ->; by vm_compute in Hd].
  - rewrite string_step in H by done. unfold next_place. injection H as <-.
    case_bool_decide; [done|]. case_bool_decide; [done|]. case_bool_decide; [done|].
    case_bool_decide; cbn; repeat split; by destruct tok.
  - rewrite escape_step in H. injection H as <-. cbn. repeat split. by destruct tok.
  - rewrite line_step in H. injection H as <-. unfold next_place. by case_bool_decide.
  - rewrite block_step in H. injection H as <-. unfold next_place. destruct (bool_decide (prev = chr 42) && bool_decide (c = chr 47)); [done|].
    case_bool_decide; [by subst|done].
Qed.
Lemma at_init : at_place t_init (Code false).
Proof. done. Qed.
Lemma t_run_app s a b : t_run s (a ++ b) = let! s' := t_run s a in t_run s' b.
Proof.
  revert s. induction a as [|c a IH]; intros s; [done|]. cbn. destruct (t_step s c) as [s'| | |]; cbn; [apply IH|done..].
Qed.
Lemma place_run s p text s' : at_place s p -> t_run s text = Ok s' -> at_place s' (fold_left next_place text p).
Proof.
  revert s p. induction text as [|c text IH]; intros s p Hp H; cbn in *; [by injection H as <-|].
  destruct (t_step s c) as [s1| | |] eqn:E; try done. cbn in H. eapply IH; [|exact H]. by eapply place_step.
Qed.
Lemma code_state s sl : at_place s (Code sl) -> s = cst (t_toks s) (t_tok s) (t_prev s) (t_line s) (t_col s) /\ bool_decide (t_prev s = chr 47) = sl.
Proof. destruct s; cbn. intros; destruct_and!; by subst. Qed.

(** ** Equal up to positions *)
Definition pclass (c : ascii) : nat := if bool_decide (c = chr 47) then 1 else if bool_decide (c = chr 42) then 2 else 0.
Definition eqv (s s' : tstate) : Prop :=
  map shape (t_toks s) = map shape (t_toks s') /\ t_tok s = t_tok s' /\ t_esc s = t_esc s' /\ t_mlc s = t_mlc s' /\
  t_slc s = t_slc s' /\ t_str s = t_str s' /\ pclass (t_prev s) = pclass (t_prev s').
Definition eqv_res (r r' : res tstate) : Prop :=
  match r, r' with Ok a, Ok b => eqv a b | Throw e, Throw e' => e = e' | UB, UB => True | Fuel, Fuel => True | _, _ => False end.
Lemma pclass_47 c c' : pclass c = pclass c' -> bool_decide (c = chr 47) = bool_decide (c' = chr 47).
Proof. unfold pclass. repeat case_bool_decide; congruence || done. Qed.
Lemma pclass_42 c c' : pclass c = pclass c' -> bool_decide (c = chr 42) = bool_decide (c' = chr 42).
Proof. unfold pclass. repeat case_bool_decide; congruence || done. Qed.
Lemma make_token_shape s ln cl ln' cl' : option_map shape (make_token s ln cl) = option_map shape (make_token s ln' cl').
Proof.
  unfold make_token. destruct (match s with [] => None | c :: _ => classify_char c end) as [[[]|]|]; try done.
  by destruct (classify_word s) as [[[] ?] ?].
Qed.
Lemma push_shape s ln cl ln' cl' l l' : map shape l = map shape l' ->
  map shape (push_opt (make_token s ln cl) l) = map shape (push_opt (make_token s ln' cl') l').
Proof.
  intros H. pose proof (make_token_shape s ln cl ln' cl') as E.
  destruct (make_token s ln cl), (make_token s ln' cl'); cbn in *; congruence.
Qed.
Lemma open_comment_eqv s s' c : eqv s s' ->
  match open_comment s c, open_comment s' c with
  | Ok (a, b, l), Ok (a', b', l') => a = a' /\ b = b' /\ map shape l = map shape l'
  | UB, UB => True | _, _ => False end.
Proof.
  intros (Ht & Hk & He & Hm & Hs & Hr & Hp). unfold open_comment. rewrite Hm, Hs, Hr, (pclass_47 _ _ Hp).
  destruct (negb (t_mlc s') && negb (t_slc s') && negb (t_str s')); cbn [andb]; [|done].
  destruct (bool_decide (c = chr 35)); [done|]. destruct (bool_decide (t_prev s' = chr 47)); [|done]. cbn [andb].
  destruct (bool_decide (c = chr 47)); [destruct (t_toks s), (t_toks s'); cbn in *; naive_solver|].
  destruct (bool_decide (c = chr 42)); [destruct (t_toks s), (t_toks s'); cbn in *; naive_solver|done].
Qed.
Ltac fin_eqv := unfold eqv_res, eqv; cbn [t_toks t_tok t_esc t_mlc t_slc t_str t_prev t_line t_col]; repeat split; try done; try congruence.
Lemma step_eqv s s' c : eqv s s' -> eqv_res (t_step s c) (t_step s' c).
Proof.
  intros H. pose proof (open_comment_eqv s s' c H) as Ho. destruct H as (Ht & Hk & He & Hm & Hs & Hr & Hp).
  unfold t_step. destruct (open_comment s c) as [[[a b] l]| | |], (open_comment s' c) as [[[a' b'] l']| | |]; try done.
  destruct Ho as (-> & -> & Hl). cbn [rbind]. destruct (b' || a') eqn:Eab.
  - rewrite (pclass_42 _ _ Hp). destruct (bool_decide (c = chr 10)); fin_eqv.
  - unfold read_char. rewrite He, Hr, Hk. destruct (t_esc s'); [fin_eqv; by destruct b'|].
    rewrite (pclass_42 _ _ Hp).
    destruct (negb (negb (bool_decide (c = chr 34)) && t_str s' && bool_decide (c = chr 92)) && negb (bool_decide (c = chr 0)));
      [|destruct (bool_decide (c = chr 10)); fin_eqv].
    destruct (negb (if bool_decide (c = chr 34) then negb (t_str s') else t_str s') && is_delim c);
      [|destruct (bool_decide (c = chr 10)); fin_eqv].
    destruct (t_tok s') as [|x tok].
    + destruct (bool_decide (c = chr 0)), (bool_decide (c = chr 10)); fin_eqv; by apply push_shape.
    + destruct (bool_decide (c = chr 34)).
      * fin_eqv; by apply push_shape.
      * destruct (bool_decide (c = chr 0)), (bool_decide (c = chr 10)); fin_eqv; repeat apply push_shape; done.
Qed.
Lemma run_eqv text : forall s s', eqv s s' -> eqv_res (t_run s text) (t_run s' text).
Proof.
  induction text as [|c text IH]; intros s s' H; [done|]. cbn. pose proof (step_eqv s s' c H) as E.
  destruct (t_step s c), (t_step s' c); try done. cbn. by apply IH.
Qed.
Lemma eqv_refl s : eqv s s.
Proof. by repeat split. Qed.

(** ** The passes do not look at positions *)
Definition er (t : token) : token := Token (k_cat t) (k_type t) (k_text t) 0 0 (k_opt t).
Lemma er_shape t : er t = let '(c, ty, s, o) := shape t in Token c ty s 0 0 o.
Proof. done. Qed.
Lemma shape_er t : shape (er t) = shape t.
Proof. done. Qed.
Lemma map_er_shape l l' : map shape l = map shape l' <-> map er l = map er l'.
Proof.
  split; intros H.
  - rewrite (map_ext er (fun t => let '(c, ty, s, o) := shape t in Token c ty s 0 0 o) er_shape).
    rewrite <- !(map_map shape (fun x => let '(c, ty, s, o) := x in Token c ty s 0 0 o)). by rewrite H.
  - assert (forall k, map shape k = map shape (map er k)) as E by (intros k; rewrite map_map; by apply map_ext).
    by rewrite (E l), (E l'), H.
Qed.
Lemma map_reverse {A B} (f : A -> B) l : map f (reverse l) = reverse (map f l).
Proof. apply fmap_reverse. Qed.
Lemma merge_pass_er f l : forall acc, map er (merge_pass f acc l) = merge_pass f (map er acc) (map er l).
Proof.
  induction l as [|t l IH]; intros acc; cbn [merge_pass map]; [apply map_reverse|].
  destruct acc as [|a acc]; cbn [map]; [apply (IH [t])|].
  change (k_type (er a)) with (k_type a). change (k_type (er t)) with (k_type t).
  destruct (f (k_type a) (k_type t)) as [[[c ty] s]|].
  - by rewrite IH.
  - apply (IH (t :: a :: acc)).
Qed.
Lemma operator_pass_er l : forall acc, map er (operator_pass acc l) = operator_pass (map er acc) (map er l).
Proof.
  induction l as [|t l IH]; intros acc; cbn [operator_pass map]; [apply map_reverse|].
  destruct acc as [|a acc]; cbn [map]; [apply (IH [t])|].
  change (is_assign_or_op (er a)) with (is_assign_or_op a).
  change (is_operator_word (er a)) with (is_operator_word a). change (is_operator_word (er t)) with (is_operator_word t).
  destruct (is_assign_or_op a && is_operator_word t); [by rewrite IH|].
  destruct (is_operator_word a); [by rewrite IH|apply (IH (t :: a :: acc))].
Qed.
Lemma starts_with_er p l : starts_with p (map er l) = starts_with p l.
Proof.
  unfold starts_with. replace (map (fun t => tnum (k_type t)) (take (length p) (map er l)))
    with (map (fun t => tnum (k_type t)) (take (length p) l)); [done|].
  rewrite (firstn_map er), map_map. done.
Qed.
Lemma search_er p l : search p (map er l) = search p l.
Proof.
  induction l as [|t l IH]; [done|]. cbn [search map]. 
  change (er t :: map er l) with (map er (t :: l)). rewrite starts_with_er, IH. done.
Qed.
Lemma search_any_er ps l : search_any ps (map er l) = search_any ps l.
Proof. induction ps as [|p ps IH]; [done|]. cbn. by rewrite search_er, IH. Qed.
Lemma combine_er ts : forall op, res_map er (combine op ts) = combine (er op) (map er ts).
Proof.
  induction ts as [|t ts IH]; intros op; [done|]. cbn [combine map].
  change (k_type (er t)) with (k_type t). change (k_text (er t)) with (k_text t).
  destruct (k_type t); try apply IH; try done.
  destruct (str_eqb (k_text t) ($"d")); [apply IH|]. destruct (str_eqb (k_text t) ($"f")); [apply IH|].
  destruct (str_eqb (k_text t) ($"i")); [done|apply IH].
Qed.
Lemma const_pass_er n : forall l, res_map (map er) (const_pass n l) = const_pass n (map er l).
Proof.
  induction n as [|n IH]; intros l; cbn [const_pass]; rewrite search_any_er;
    destruct (search_any const_patterns l) as [[i k]|]; try done.
  rewrite (skipn_map er i l). destruct (drop i l) as [|op rest]; [done|]. cbn [map].
  rewrite (firstn_map er), <- combine_er. destruct (combine op (take (k - 1) rest)); try done. cbn [rbind res_map].
  rewrite IH, map_app. cbn [map]. by rewrite (firstn_map er), (skipn_map er).
Qed.
Lemma passes_er l : res_map (map er) (passes l) = passes (map er l).
Proof.
  unfold passes. set (a := merge_pass merge_operator [] (merge_pass merge_assign [] l)).
  assert (merge_pass merge_operator [] (merge_pass merge_assign [] (map er l)) = map er a) as ->.
  { unfold a. by rewrite !merge_pass_er. }
  rewrite map_length, <- const_pass_er. destruct (const_pass (length a) a); try done. cbn.
  by rewrite operator_pass_er.
Qed.
Lemma shapes_er r : shapes r = res_map (map shape) (res_map (map er) r).
Proof. destruct r; try done. cbn. f_equal. rewrite map_map. by apply map_ext. Qed.
Lemma passes_shape l l' : map shape l = map shape l' -> shapes (passes l) = shapes (passes l').
Proof. intros H. apply map_er_shape in H. by rewrite (shapes_er (passes l)), (shapes_er (passes l')), !passes_er, H. Qed.

Lemma tokenize_eqv a b r : eqv_res (t_run t_init a) (t_run t_init b) -> shapes (tokenize (a ++ r)) = shapes (tokenize (b ++ r)).
Proof.
  intros H. unfold tokenize, raw_tokens. rewrite <- !app_assoc, !t_run_app.
  destruct (t_run t_init a) as [s| | |], (t_run t_init b) as [s'| | |]; try done; [|cbn in H; by subst].
  cbn [rbind]. pose proof (run_eqv (r ++ [chr 0]) s s' H) as E.
  destruct (t_run s (r ++ [chr 0])) as [u| | |], (t_run s' (r ++ [chr 0])) as [u'| | |]; try done; [|cbn in E; by subst].
  cbn [rbind]. apply passes_shape. rewrite !map_app, !map_reverse. destruct E as [-> _]. done.
Qed.

(** ** White space (C12) *)
Lemma blanks_white w : blanks w -> w <> [] /\ forallb is_white w = true.
Proof. intros [H1 H2]. split; [done|]. apply forallb_forall. intros c Hc. apply is_white_iff, H2. by apply elem_of_list_In. Qed.
Lemma white_run w : forallb is_white w = true -> w <> [] -> forall toks tok prev ln cl,
  exists prev' ln' cl', t_run (cst toks tok prev ln cl) w = Ok (cst (flush tok ln cl toks) [] prev' ln' cl') /\ pclass prev' = 0%nat.
Proof.
  induction w as [|c w IH]; [done|]. intros Hw _ toks tok prev ln cl. cbn in Hw. apply andb_true_iff in Hw as [Hc Hw].
  cbn [t_run]. rewrite code_white by done. cbn [rbind].
  assert (pclass c = 0%nat) as Hpc. { apply white_facts in Hc as (? & ? & ? & ? & ? & ? & ?). unfold pclass. by bfs. }
  destruct (decide (w = [])) as [->|Hne].
  - cbn [t_run]. destruct (bool_decide (c = chr 10)); eauto 6.
  - destruct (bool_decide (c = chr 10)).
    + destruct (IH Hw Hne (flush tok ln cl toks) [] (chr 0) (ln + 1)%N 1%N) as (p & a & b & E & Hp). eauto 6.
    + destruct (IH Hw Hne (flush tok ln cl toks) [] c ln (cl + 1)%N) as (p & a & b & E & Hp). eauto 6.
Qed.
Lemma flush_shape tok ln cl ln' cl' l l' : map shape l = map shape l' -> map shape (flush tok ln cl l) = map shape (flush tok ln' cl' l').
Proof. intros H. destruct tok; [done|]. by apply push_shape. Qed.
Lemma white_eqv w w' s s' sl sl' : blanks w -> blanks w' -> at_place s (Code sl) -> at_place s' (Code sl') ->
  map shape (t_toks s) = map shape (t_toks s') -> t_tok s = t_tok s' -> eqv_res (t_run s w) (t_run s' w').
Proof.
  intros Hw Hw' Hs Hs' Ht Hk. apply code_state in Hs as [-> _], Hs' as [-> _].
  apply blanks_white in Hw as [Hw1 Hw2], Hw' as [Hw1' Hw2'].
  edestruct (white_run w Hw2 Hw1) as (p & a & b & -> & Hp). edestruct (white_run w' Hw2' Hw1') as (p' & a' & b' & -> & Hp').
  cbn [t_toks t_tok] in Ht, Hk. rewrite Hk. unfold eqv_res, eqv. cbn [t_toks t_tok t_esc t_mlc t_slc t_str t_prev].
  repeat split; [by apply flush_shape|congruence].
Qed.
Lemma place_code text sl s : place_after text = Code sl -> t_run t_init text = Ok s -> at_place s (Code sl).
Proof. intros H E. unfold place_after in H. rewrite <- H. eapply place_run; [exact at_init|exact E]. Qed.
Lemma c12 a w w' b sl : place_after a = Code sl -> blanks w -> blanks w' ->
  shapes (tokenize (a ++ w ++ b)) = shapes (tokenize (a ++ w' ++ b)).
Proof.
  intros Ha Hw Hw'. rewrite !app_assoc. apply tokenize_eqv. rewrite !t_run_app.
  destruct (t_run t_init a) as [s| | |] eqn:E; try done. cbn [rbind].
  pose proof (place_code _ _ _ Ha E). by eapply white_eqv.
Qed.
