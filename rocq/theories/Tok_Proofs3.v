(** Proofs about the tokenizer model: the merge passes and the end of file token (C11, C17). *)
From Verif Require Import Base Base_Proofs Text_Model Text_Proofs Tok_Model Tok_Spec Tok_Proofs Tok_Proofs2.

(** ** merge_pass *)
Lemma merge_pass_eof f e l : (forall a, f a ENDOFFILE = None) -> k_type e = ENDOFFILE ->
  forall acc, merge_pass f acc (l ++ [e]) = merge_pass f acc l ++ [e].
Proof.
  intros Hf He. induction l as [|t l IH]; intros acc; cbn [merge_pass app].
  - destruct acc as [|a acc]; [done|]. rewrite He, Hf. cbn [merge_pass]. by rewrite reverse_cons.
  - destruct acc as [|a acc]; [apply IH|]. destruct (f (k_type a) (k_type t)) as [[[c ty] s]|]; apply IH.
Qed.
Lemma merge_pass_P f (P : ttype -> Prop) l : (forall a b c ty s, f a b = Some (c, ty, s) -> P ty) ->
  forall acc, Forall (fun t => P (k_type t)) acc -> Forall (fun t => P (k_type t)) l -> Forall (fun t => P (k_type t)) (merge_pass f acc l).
Proof.
  intros Hf. induction l as [|t l IH]; intros acc Ha Hl; cbn [merge_pass]; [by apply Forall_reverse|].
  apply Forall_cons in Hl as [Ht Hl]. destruct acc as [|a acc]; [apply IH; auto|].
  destruct (f (k_type a) (k_type t)) as [[[c ty] s]|] eqn:E; apply IH; auto.
  constructor; [by eapply Hf|]. by apply Forall_inv_tail in Ha.
Qed.
Lemma merge_assign_second a b x : merge_assign a b = Some x -> b = ASSIGN.
Proof. unfold merge_assign. by destruct b. Qed.
Lemma merge_assign_result a b c ty s : merge_assign a b = Some (c, ty, s) -> ty <> ASSIGN /\ ty <> ENDOFFILE /\ ty <> RESERVED_WORD.
Proof. intros H. pose proof (merge_assign_second _ _ _ H) as ->. cbn in H. destruct a; try discriminate; injection H as <- <- <-; done. Qed.
Lemma merge_operator_second a b x : merge_operator a b = Some x -> b ∈ [BITAND; BITOR; OPERATOR_SCOPE; MATH_SUBTRACT; MATH_ADDITION; COMPARE_LESS; COMPARE_GREATER; BRACKET_CLOSE].
Proof. unfold merge_operator. destruct a; try done; destruct b; try done; intros _; set_solver. Qed.
Lemma merge_operator_result a b c ty s : merge_operator a b = Some (c, ty, s) ->
  (forall x y, merge_operator x ty <> Some y) /\ ty <> ENDOFFILE /\ ty <> RESERVED_WORD /\ ty <> ASSIGN.
Proof.
  unfold merge_operator at 1. destruct a; try done; destruct b; try done; intros H; injection H as <- <- <-;
    (repeat split; [intros x y Hx; apply merge_operator_second in Hx; set_solver|done..]).
Qed.
Lemma merge_assign_eof a : merge_assign a ENDOFFILE = None.
Proof. done. Qed.
Lemma merge_operator_eof a : merge_operator a ENDOFFILE = None.
Proof. by destruct a. Qed.

(** ** const_pass *)
Lemma types_take l n : map (fun t => tnum (k_type t)) (take n l) = take n (map (fun t => tnum (k_type t)) l).
Proof. by rewrite firstn_map. Qed.
Lemma starts_with_len p l : starts_with p l = true -> (length p <= length l)%nat.
Proof.
  unfold starts_with. intros H. apply bool_decide_eq_true in H. apply (f_equal length) in H. rewrite !map_length, take_length in H. lia.
Qed.
Definition no_eof_pat (p : list ttype) : Prop := ENDOFFILE ∉ p.
Lemma starts_with_snoc p l e : no_eof_pat p -> k_type e = ENDOFFILE -> starts_with p (l ++ [e]) = starts_with p l.
Proof.
  intros Hp He. destruct (decide (length p <= length l)%nat) as [Hl|Hl].
  - unfold starts_with. by rewrite take_app_le.
  - destruct (starts_with p l) eqn:E1; [apply starts_with_len in E1; lia|].
    destruct (starts_with p (l ++ [e])) eqn:E2; [|done]. exfalso. apply Hp.
    unfold starts_with in E2. apply bool_decide_eq_true in E2. rewrite take_ge in E2 by (rewrite app_length; cbn; lia).
    rewrite map_app in E2. cbn in E2. rewrite He in E2.
    assert (tnum ENDOFFILE ∈ map tnum p) as H by (rewrite E2; set_solver).
    apply elem_of_list_fmap in H as (y & Hy & Hin). by apply tnum_inj in Hy as <-.
Qed.
Lemma search_snoc p l e : no_eof_pat p -> p <> [] -> k_type e = ENDOFFILE -> search p (l ++ [e]) = search p l.
Proof.
  intros Hp Hne He. induction l as [|t l IH].
  - change (search p ([] ++ [e])) with (if starts_with p ([] ++ [e]) then Some 0%nat else option_map S (search p [])).
    rewrite starts_with_snoc by done. cbn. assert (starts_with p [] = false) as ->; [|done].
    destruct (starts_with p []) eqn:E; [|done]. apply starts_with_len in E. destruct p; [done|]. cbn in E. lia.
  - change (search p ((t :: l) ++ [e])) with (if starts_with p ((t :: l) ++ [e]) then Some 0%nat else option_map S (search p (l ++ [e]))).
    rewrite starts_with_snoc by done. by rewrite IH.
Qed.
Lemma search_some p l i : search p l = Some i -> (i <= length l)%nat /\ starts_with p (drop i l) = true.
Proof.
  revert i. induction l as [|t l IH]; intros i; cbn [search].
  - destruct (starts_with p []) eqn:E; [|done]. intros H. by injection H as <-.
  - destruct (starts_with p (t :: l)) eqn:E.
    + intros H. injection H as <-. cbn. split; [lia|done].
    + destruct (search p l) as [j|]; [|done]. intros H. injection H as <-. destruct (IH j eq_refl). cbn. split; [lia|done].
Qed.
Lemma patterns_ok p : p ∈ const_patterns -> no_eof_pat p /\ (2 <= length p)%nat.
Proof.
  unfold const_patterns. intros H. repeat (apply elem_of_cons in H as [->|H]; [split; [unfold no_eof_pat; set_solver|cbn; lia]|]).
  by apply elem_of_nil in H.
Qed.
Lemma search_any_snoc ps l e : (forall p, p ∈ ps -> p ∈ const_patterns) -> k_type e = ENDOFFILE -> search_any ps (l ++ [e]) = search_any ps l.
Proof.
  intros Hps He. induction ps as [|p ps IH]; [done|]. cbn.
  destruct (patterns_ok p) as [H1 H2]; [apply Hps; left|].
  rewrite search_snoc; [|done|destruct p; [cbn in H2; lia|done]|done].
  destruct (search p l); [done|]. apply IH. intros q Hq. apply Hps. by right.
Qed.
Lemma search_any_some ps l i n : search_any ps l = Some (i, n) ->
  exists p, p ∈ ps /\ n = length p /\ (i <= length l)%nat /\ starts_with p (drop i l) = true.
Proof.
  induction ps as [|p ps IH]; [done|]. cbn. destruct (search p l) as [j|] eqn:E.
  - intros H. injection H as <- <-. apply search_some in E as [H1 H2]. exists p. repeat split; try done. left.
  - intros H. destruct (IH H) as (q & H1 & H2). exists q. split; [by right|done].
Qed.
(** One iteration, in terms of a split of the list. *)
Lemma search_split l i n : search_any const_patterns l = Some (i, n) ->
  exists pre op mid post, l = pre ++ op :: mid ++ post /\ length pre = i /\ length mid = (n - 1)%nat /\ mid <> [] /\
    starts_with (take n (map k_type (op :: mid))) (op :: mid) = true /\ take n (map k_type (op :: mid)) ∈ const_patterns.
Proof.
  intros H. apply search_any_some in H as (p & Hp & -> & Hi & Hs). pose proof (starts_with_len _ _ Hs) as Hl.
  destruct (patterns_ok p Hp) as [_ H2]. 
  destruct (drop i l) as [|op rest] eqn:Ed; [cbn in Hl; lia|].
  exists (take i l), op, (take (length p - 1) rest), (drop (length p - 1) rest). rewrite take_drop, <- Ed, take_drop.
  cbn in Hl. repeat split.
  - by apply take_length_le.
  - rewrite take_length. lia.
  - intros E. apply (f_equal length) in E. rewrite take_length in E. cbn in E. lia.
  - assert (take (length p) (map k_type (op :: take (length p - 1) rest)) = p) as ->.
    { unfold starts_with in Hs. apply bool_decide_eq_true in Hs. destruct (length p) as [|m] eqn:Em; [lia|].
      cbn [take map] in *. rewrite Nat.sub_succ, Nat.sub_0_r in *.
      assert (map tnum p = map tnum (k_type op :: map k_type (take m rest))) as E by (cbn; by rewrite map_map).
      assert (forall a b, map tnum a = map tnum b -> a = b) as Hinj.
      { induction a as [|x a IH]; intros [|y b] Hab; try done. cbn in Hab. injection Hab as Hx Hab.
        f_equal; [by apply tnum_inj|by apply IH]. }
      apply Hinj in E. rewrite take_ge; [done|]. rewrite map_length, take_length. lia. }
    unfold starts_with in *. apply bool_decide_eq_true in Hs. apply bool_decide_eq_true. rewrite Hs.
    destruct (length p) as [|m] eqn:Em; [lia|]. cbn [take map]. rewrite Nat.sub_succ, Nat.sub_0_r in *. by rewrite take_take, Nat.min_id.
  - assert (take (length p) (map k_type (op :: take (length p - 1) rest)) = p) as ->; [|done].
    { unfold starts_with in Hs. apply bool_decide_eq_true in Hs. destruct (length p) as [|m] eqn:Em; [lia|].
      cbn [take map] in *. rewrite Nat.sub_succ, Nat.sub_0_r in *.
      assert (map tnum p = map tnum (k_type op :: map k_type (take m rest))) as E by (cbn; by rewrite map_map).
      assert (forall a b, map tnum a = map tnum b -> a = b) as Hinj.
      { induction a as [|x a IH]; intros [|y b] Hab; try done. cbn in Hab. injection Hab as Hx Hab.
        f_equal; [by apply tnum_inj|by apply IH]. }
      apply Hinj in E. rewrite take_ge; [done|]. rewrite map_length, take_length. lia. }
Qed.
Lemma const_pass_some n l i k pre op mid post :
  search_any const_patterns l = Some (i, k) -> l = pre ++ op :: mid ++ post -> length pre = i -> length mid = (k - 1)%nat ->
  const_pass (S n) l = let! op' := combine op mid in const_pass n (pre ++ op' :: post).
Proof.
  intros Hs -> <- Hm. cbn [const_pass]. rewrite Hs. rewrite drop_app, take_app, <- Hm, take_app, drop_app. done.
Qed.
Lemma const_pass_none n l : search_any const_patterns l = None -> const_pass n l = Ok l.
Proof. intros H. destruct n; cbn [const_pass]; by rewrite H. Qed.
Lemma const_pass_eof n e : k_type e = ENDOFFILE -> forall l, const_pass n (l ++ [e]) = res_map (fun r => r ++ [e]) (const_pass n l).
Proof.
  intros He. induction n as [|n IH]; intros l; destruct (search_any const_patterns l) as [[i k]|] eqn:E.
  - cbn [const_pass]. rewrite search_any_snoc, E by done. done.
  - rewrite !const_pass_none by (try done; by rewrite search_any_snoc). done.
  - destruct (search_split l i k E) as (pre & op & mid & post & -> & Hi & Hm & _).
    rewrite (const_pass_some n (pre ++ op :: mid ++ post) i k pre op mid post) by done.
    rewrite (const_pass_some n _ i k pre op mid (post ++ [e])); [|by rewrite search_any_snoc|by rewrite <- !app_assoc; cbn; rewrite <- !app_assoc|done..].
    destruct (combine op mid) as [op'| | |]; try done. cbn [rbind].
    rewrite <- IH. by rewrite <- app_assoc.
  - rewrite !const_pass_none by (try done; by rewrite search_any_snoc). done.
Qed.
Lemma combine_type ts : forall op op', combine op ts = Ok op' -> k_type op' ∈ [k_type op; CONST_DOUBLE; CONST_FLOAT].
Proof.
  induction ts as [|t ts IH]; intros op op' H; cbn [combine] in H; [injection H as <-; left|].
  destruct (k_type t); try (apply IH in H; set_solver); try done.
  destruct (str_eqb (k_text t) ($"d")); [apply IH in H; set_solver|].
  destruct (str_eqb (k_text t) ($"f")); [apply IH in H; set_solver|].
  destruct (str_eqb (k_text t) ($"i")); [done|apply IH in H; set_solver].
Qed.
(** Induction over the iterations: the combined token is a number. *)
Lemma const_pass_ind (R : list token -> list token -> Prop) :
  (forall l, R l l) ->
  (forall pre op mid post op' r, R (pre ++ op' :: post) r -> mid <> [] ->
     k_type op' ∈ [CONST_INTEGER; CONST_DOUBLE; CONST_FLOAT] -> combine op mid = Ok op' -> R (pre ++ op :: mid ++ post) r) ->
  forall n l r, const_pass n l = Ok r -> R l r.
Proof.
  intros H0 H1. induction n as [|n IH]; intros l r H; destruct (search_any const_patterns l) as [[i k]|] eqn:E.
  - cbn [const_pass] in H. by rewrite E in H.
  - rewrite const_pass_none in H by done. injection H as <-. apply H0.
  - destruct (search_split l i k E) as (pre & op & mid & post & -> & Hi & Hm & Hne & Hst & Hin).
    erewrite const_pass_some in H by done. destruct (combine op mid) as [op'| | |] eqn:Ec; try done. cbn [rbind] in H.
    eapply H1; [by apply IH|done| |done]. apply combine_type in Ec.
    assert (k_type op = CONST_INTEGER) as Eo.
    { destruct k as [|k]; [cbn in Hin; unfold const_patterns in Hin; set_solver|]. cbn [map take] in Hin.
      unfold const_patterns in Hin. set_unfold in Hin. naive_solver. }
    by rewrite Eo in Ec.
  - rewrite const_pass_none in H by done. injection H as <-. apply H0.
Qed.
Lemma const_pass_fuel n : forall l, (length l <= n)%nat -> const_pass n l <> Fuel /\ const_pass n l <> UB.
Proof.
  induction n as [|n IH]; intros l Hl; destruct (search_any const_patterns l) as [[i k]|] eqn:E.
  - destruct (search_split l i k E) as (pre & op & mid & post & -> & _). rewrite app_length in Hl. cbn in Hl. lia.
  - by rewrite const_pass_none.
  - destruct (search_split l i k E) as (pre & op & mid & post & -> & Hi & Hm & Hne & _).
    erewrite const_pass_some by done. 
    assert (combine op mid <> Fuel /\ combine op mid <> UB) as [H1 H2].
    { clear. revert op. induction mid as [|t mid IH]; intros op; [done|]. cbn [combine].
      destruct (k_type t); try apply IH; try done. repeat case_match; try apply IH; done. }
    destruct (combine op mid); try done. cbn [rbind]. apply IH. destruct mid; [done|].
    rewrite !app_length in Hl. cbn in Hl. rewrite app_length in Hl. rewrite app_length. cbn. lia.
  - by rewrite const_pass_none.
Qed.
Lemma const_pass_P (P : ttype -> Prop) n l r : P CONST_INTEGER -> P CONST_DOUBLE -> P CONST_FLOAT ->
  const_pass n l = Ok r -> Forall (fun t => P (k_type t)) l -> Forall (fun t => P (k_type t)) r.
Proof.
  intros P1 P2 P3. revert n l r. apply (const_pass_ind (fun l r => Forall (fun t => P (k_type t)) l -> Forall (fun t => P (k_type t)) r)); [done|].
  intros pre op mid post op' r IH Hne Ht _ H. apply IH. apply Forall_app in H as [Ha H]. apply Forall_cons in H as [_ H].
  apply Forall_app in H as [_ Hb]. apply Forall_app. split; [done|]. constructor; [|done]. set_unfold in Ht. naive_solver congruence.
Qed.

(** ** operator_pass *)
Lemma operator_pass_app l l' : forall acc, operator_pass acc (l ++ l') = operator_pass (reverse (operator_pass acc l)) l'.
Proof.
  induction l as [|t l IH]; intros acc; cbn [operator_pass app].
  - by rewrite reverse_involutive.
  - destruct acc as [|a acc]; [apply IH|]. destruct (is_assign_or_op a && is_operator_word t); [apply IH|]. destruct (is_operator_word a); apply IH.
Qed.
Lemma operator_pass_P (P : ttype -> Prop) l : P IDENTIFIER -> forall acc,
  Forall (fun t => P (k_type t)) acc -> Forall (fun t => P (k_type t)) l -> Forall (fun t => P (k_type t)) (operator_pass acc l).
Proof.
  intros HP. induction l as [|t l IH]; intros acc Ha Hl; cbn [operator_pass]; [by apply Forall_reverse|].
  apply Forall_cons in Hl as [Ht Hl]. destruct acc as [|a acc]; [apply IH; auto|]. apply Forall_cons in Ha as [Ha1 Ha2].
  destruct (is_assign_or_op a && is_operator_word t); [apply IH; auto|]. destruct (is_operator_word a); apply IH; auto.
Qed.
Lemma operator_pass_last acc l t : (l <> [] -> exists t', last l = Some t' /\ (is_operator_word t = true -> last (operator_pass acc l) = Some t -> t' = t)).
Proof.
  intros Hl. destruct (exists_last Hl) as (l0 & t' & ->). exists t'. split; [apply last_snoc|]. intros Ht H.
  rewrite operator_pass_app in H. destruct (reverse (operator_pass acc l0)) as [|a q]; cbn [operator_pass] in H.
  - cbn in H. congruence.
  - destruct (is_assign_or_op a && is_operator_word t'); [|destruct (is_operator_word a)];
      cbn [operator_pass] in H; rewrite reverse_cons, last_snoc in H; injection H as <-; [done..|done].
Qed.

(** ** End of file (C11) *)
Definition word_operator (t : token) : Prop := k_type t = RESERVED_WORD /\ k_text t = $"operator".
Lemma is_operator_word_iff t : is_operator_word t = true <-> word_operator t.
Proof. unfold is_operator_word, word_operator. by rewrite andb_true_iff, ttype_eqb_eq, str_eqb_eq. Qed.

Lemma merge_pass_snoc f acc l l' : merge_pass f acc (l ++ l') = merge_pass f (reverse (merge_pass f acc l)) l'.
Proof.
  revert acc. induction l as [|t l IH]; intros acc; cbn [merge_pass app]; [by rewrite reverse_involutive|].
  destruct acc as [|a acc]; [apply IH|]. destruct (f (k_type a) (k_type t)) as [[[c ty] s]|]; apply IH.
Qed.
Lemma merge_pass_last f l : (forall a b c ty s, f a b = Some (c, ty, s) -> ty <> RESERVED_WORD) ->
  forall t, last (merge_pass f [] l) = Some t -> k_type t = RESERVED_WORD -> last l = Some t.
Proof.
  intros Hf t H Ht. destruct (decide (l = [])) as [->|Hl]; [done|]. destruct (exists_last Hl) as (l0 & t' & ->).
  rewrite merge_pass_snoc in H. rewrite last_snoc. destruct (reverse (merge_pass f [] l0)) as [|a q]; cbn [merge_pass] in H; [done|].
  destruct (f (k_type a) (k_type t')) as [[[c ty] s]|] eqn:E; cbn [merge_pass] in H; rewrite reverse_cons, last_snoc in H; injection H as <-; [|done].
  apply Hf in E. done.
Qed.
Lemma const_pass_last n l r t : const_pass n l = Ok r -> last r = Some t -> k_type t = RESERVED_WORD -> last l = Some t.
Proof.
  intros H. revert n l r H. apply (const_pass_ind (fun l r => last r = Some t -> k_type t = RESERVED_WORD -> last l = Some t)); [done|].
  intros pre op mid post op' r IH Hne Ht _ H Hr. specialize (IH H Hr).
  rewrite last_app_cons in IH |- *. destruct post as [|x post].
  - cbn in IH. injection IH as ->. rewrite Hr in Ht. set_solver.
  - rewrite last_cons_cons in IH. rewrite app_comm_cons, last_app_cons. done.
Qed.
Lemma tokenize_eof text l : tokenize text = Ok l ->
  exists raw body, raw_tokens text = Ok (raw ++ [eof_token]) /\ Forall (fun t => k_type t <> ENDOFFILE) body /\
   ((l = body ++ [eof_token]) \/
    (exists t, last raw = Some t /\ word_operator t /\ l = body ++ [Token CNone IDENTIFIER ($"operator") 0 0 false])).
Proof.
  unfold tokenize. intros H. destruct (raw_tokens text) as [r| | |] eqn:E; try done. cbn [rbind] in H.
  apply raw_no_eof in E as (raw & -> & Hraw). exists raw. unfold passes in H.
  rewrite !merge_pass_eof in H by (done || apply merge_operator_eof).
  set (m1 := merge_pass merge_assign [] raw) in *. set (m2 := merge_pass merge_operator [] m1) in *.
  rewrite const_pass_eof in H by done. destruct (const_pass (length (m2 ++ [eof_token])) m2) as [b| | |] eqn:Ec; try done. cbn [res_map rbind] in H.
  rewrite operator_pass_app in H. injection H as H.
  assert (Forall (fun t => k_type t <> ENDOFFILE) m1) as H1.
  { apply (merge_pass_P merge_assign (fun t => t <> ENDOFFILE)); [|constructor|done]. intros a b' c ty s Hf. by apply merge_assign_result in Hf as (? & ? & ?). }
  assert (Forall (fun t => k_type t <> ENDOFFILE) m2) as H2.
  { apply (merge_pass_P merge_operator (fun t => t <> ENDOFFILE)); [|constructor|done]. intros a b' c ty s Hf. by apply merge_operator_result in Hf as (? & ? & ? & ?). }
  assert (Forall (fun t => k_type t <> ENDOFFILE) b) as H3.
  { eapply (const_pass_P (fun t => t <> ENDOFFILE)); [..|exact Ec|done]; done. }
  assert (Forall (fun t => k_type t <> ENDOFFILE) (operator_pass [] b)) as H4.
  { apply (operator_pass_P (fun t => t <> ENDOFFILE)); [done|constructor|done]. }
  destruct (reverse (operator_pass [] b)) as [|a q] eqn:Er.
  - exists []. split; [done|]. split; [constructor|]. left. by cbn in H.
  - apply (f_equal reverse) in Er. rewrite reverse_involutive, reverse_cons in Er. rewrite Er in H4. apply Forall_app in H4 as [H4 H5].
    cbn [operator_pass] in H. change (is_operator_word eof_token) with false in H. rewrite andb_false_r in H.
    destruct (is_operator_word a) eqn:Ea; cbn [operator_pass] in H; rewrite !reverse_cons in H.
    + exists (reverse q). split; [done|]. split; [done|]. right. exists a. apply is_operator_word_iff in Ea as Ea'. destruct Ea' as [Ety Etx].
      split; [|split; [done|by rewrite <- H]].
      assert (last b = Some a) as Hb.
      { destruct (operator_pass_last [] b a) as (t' & Hl & Ht'); [intros ->; by apply (f_equal length) in Er; rewrite app_length in Er; cbn in Er; lia|].
        rewrite Hl. f_equal. apply Ht'; [done|]. by rewrite Er, last_snoc. }
      eapply const_pass_last in Ec; [|exact Hb|done].
      apply merge_pass_last in Ec; [|intros a' b' c ty s Hf; by apply merge_operator_result in Hf as (? & ? & ? & ?)|done].
      apply merge_pass_last in Ec; [done|intros a' b' c ty s Hf; by apply merge_assign_result in Hf as (? & ? & ?)|done].
    + exists (reverse q ++ [a]). split; [done|]. split; [by apply Forall_app|]. left. by rewrite <- H.
Qed.

(** ** No underflow *)
Definition slash_on_top (s : tstate) : Prop := exists t l, t_toks s = t :: l /\ k_type t = MATH_DIVIDE.
Lemma no_underflow_run text : forall hist s,
  (forall x y, hist ++ text <> x ++ [chr 42; chr 47; chr 47] ++ y) ->
  (forall x y, hist ++ text <> x ++ [chr 42; chr 47; chr 42] ++ y) ->
  at_place s (place_after hist) ->
  (place_after hist = Code true -> slash_on_top s \/ exists h, hist = h ++ [chr 42; chr 47]) ->
  (forall st, place_after hist = InBlock st -> st = true -> exists h, hist = h ++ [chr 42]) ->
  exists s', t_run s text = Ok s'.
Proof.
  induction text as [|c text IH]; intros hist s N1 N2 Hp Hs Hb; [cbn; eauto|]. cbn [t_run].
  assert (exists s', t_step s c = Ok s' /\ (next_place (place_after hist) c = Code true -> slash_on_top s' \/ exists h, hist ++ [c] = h ++ [chr 42; chr 47])) as (s' & Es & Hs').
  { destruct (place_after hist) as [sl| | | |st] eqn:Epl.
    - apply code_state in Hp as [Es Hpr]. rewrite Es. set (prev := t_prev s) in *.
      rewrite next_code. destruct (ckind_of prev c) as [|Hsl|Hsl| | |c Hw|c Hd Hw H34 Ho|c Hd H0].
      + rewrite code_hash. eexists. split; [done|]. done.
      + rewrite Hsl in *. change (true = sl) in Hpr. subst sl. destruct (Hs eq_refl) as [(t & l & Et & _)|[h ->]].
        * rewrite Et, code_slash2. eexists. split; [done|]. done.
        * exfalso. apply (N1 h text). by rewrite <- app_assoc.
      + rewrite Hsl in *. change (true = sl) in Hpr. subst sl. destruct (Hs eq_refl) as [(t & l & Et & _)|[h ->]].
        * rewrite Et, code_slashstar. eexists. split; [done|]. done.
        * exfalso. apply (N2 h text). by rewrite <- app_assoc.
      + rewrite code_quote. eexists. split; [done|]. change (bool_decide (chr 34 = chr 35)) with false. by destruct sl.
      + rewrite code_nul. eexists. split; [done|]. by destruct sl.
      + rewrite code_white by done. eexists. split; [done|]. apply white_facts in Hw as (? & ? & ? & ? & ? & ? & ?). bfs. by destruct sl.
      + rewrite code_delim by done. eexists. split; [done|]. intros Hn. left.
        assert (c = chr 47) as ->. { repeat case_match; try done. injection Hn as Hn. by apply bool_decide_eq_true in Hn. }
        eexists _, _. split; [done|done].
      + rewrite code_word by done. eexists. split; [done|]. intros Hn. exfalso.
        assert (c = chr 47) as ->. { repeat case_match; try done. injection Hn as Hn. by apply bool_decide_eq_true in Hn. } by vm_compute in Hd.
    - destruct s as [toks tok esc mlc slc str prev ln cl]. unfold at_place in Hp. cbn [t_esc t_mlc t_slc t_str t_prev t_tok] in Hp. destruct_and!. subst.
      rewrite string_step by done. eexists. split; [done|]. unfold next_place. repeat case_match; done.
    - destruct s as [toks tok esc mlc slc str prev ln cl]. unfold at_place in Hp. cbn [t_esc t_mlc t_slc t_str t_prev t_tok] in Hp. destruct_and!. subst.
      rewrite escape_step. eexists. split; [done|]. done.
    - destruct s as [toks tok esc mlc slc str prev ln cl]. unfold at_place in Hp. cbn [t_esc t_mlc t_slc t_str t_prev t_tok] in Hp. destruct_and!. subst.
      rewrite line_step. eexists. split; [done|]. unfold next_place. case_match; done.
    - destruct s as [toks tok esc mlc slc str prev ln cl]. unfold at_place in Hp. cbn [t_esc t_mlc t_slc t_str t_prev t_tok] in Hp. destruct_and!. subst.
      rewrite block_step. eexists. split; [done|]. intros Hn. right. unfold next_place in Hn. case_match eqn:Eq; [|done].
      apply andb_true_iff in Eq as [E1 E2]. apply bool_decide_eq_true in E2. subst c. destruct (Hb _ eq_refl E1) as [h ->].
      exists h. by rewrite <- app_assoc. }
  rewrite Es. cbn [rbind]. assert (place_after (hist ++ [c]) = next_place (place_after hist) c) as En.
  { unfold place_after. by rewrite fold_left_app. }
  apply (IH (hist ++ [c])).
  - by rewrite <- app_assoc.
  - by rewrite <- app_assoc.
  - rewrite En. by eapply place_step.
  - by rewrite En.
  - rewrite En. intros st Hst ->. destruct (place_after hist) as [sl| | | |st']; unfold next_place in Hst.
    + destruct (bool_decide (c = chr 35)); [done|]. destruct (sl && bool_decide (c = chr 47)); [done|].
      destruct (sl && bool_decide (c = chr 42)) eqn:Eq; [|by destruct (bool_decide (c = chr 34))].
      apply andb_true_iff in Eq as [_ E2]. apply bool_decide_eq_true in E2. subst. eauto.
    + repeat case_match; done.
    + done.
    + repeat case_match; done.
    + destruct (st' && bool_decide (c = chr 47)); [done|]. injection Hst as E2. apply bool_decide_eq_true in E2. subst. eauto.
Qed.
