(** Proofs about break points (C57). *)
From Coq Require Import Sorting.Sorted.
From Verif Require Import Base Base_Proofs Text_Model Text_Proofs Value_Model Debug_Model Debug_Spec.

Lemma bpoint_lt_iff a b : bpoint_lt a b = true <-> before (place a) (place b).
Proof.
  unfold bpoint_lt, before, place, str_eqb. cbn [fst snd]. case_bool_decide as E.
  - rewrite E, str_ltb_irrefl, N.ltb_lt. split; [tauto|]. intros [?|[_ ?]]; done.
  - split; [tauto|]. intros [?|[? _]]; done.
Qed.
Lemma before_trans p q r : before p q -> before q r -> before p r.
Proof.
  unfold before. intros [H|[E H]] [H'|[E' H']].
  - left. by eapply str_ltb_trans.
  - left. by rewrite <- E'.
  - left. by rewrite E.
  - right. split; [congruence|lia].
Qed.
Lemma before_irrefl p : ~ before p p.
Proof. intros [H|[_ H]]; [by rewrite str_ltb_irrefl in H|lia]. Qed.
Lemma before_total p q : p <> q -> before p q \/ before q p.
Proof.
  intros H. destruct p as [f l], q as [g m]. unfold before. cbn [fst snd].
  destruct (str_ltb f g) eqn:E1; [by left; left|]. destruct (str_ltb g f) eqn:E2; [by right; left|].
  pose proof (str_ltb_total _ _ E1 E2) as ->. destruct (decide (l < m)%N); [left; right; done|]. right. right. split; [done|].
  assert (l <> m) by congruence. lia.
Qed.
Lemma bsame_iff a b : bsame a b = true <-> place a = place b.
Proof.
  unfold bsame. rewrite andb_true_iff, !negb_true_iff. split.
  - intros [H1 H2]. destruct (decide (place a = place b)) as [|N]; [done|]. destruct (before_total _ _ N) as [H|H]; apply bpoint_lt_iff in H; congruence.
  - intros E. split; apply not_true_iff_false; rewrite bpoint_lt_iff, E; apply before_irrefl.
Qed.
Definition bsorted (s : list bpoint) : Prop := StronglySorted (fun a b => before (place a) (place b)) s.
Lemma bfind_iff b s x : bsorted s -> (bfind b s = Some x <-> x ∈ s /\ place x = place b).
Proof.
  induction s as [|y s IH]; intros Hs; cbn [bfind].
  - split; [done|]. intros [H _]. by apply elem_of_nil in H.
  - apply StronglySorted_inv in Hs as [Hs Hy]. destruct (bsame y b) eqn:E.
    + apply bsame_iff in E. split.
      * intros [= ->]. split; [left|done].
      * intros [Hin Hp]. apply elem_of_cons in Hin as [->|Hin]; [done|]. rewrite List.Forall_forall in Hy. apply elem_of_list_In in Hin.
        apply Hy in Hin. rewrite Hp, E in Hin. by apply before_irrefl in Hin.
    + rewrite IH by done. rewrite elem_of_cons. split; [tauto|]. intros [[->|H] Hp]; [|done]. apply bsame_iff in Hp. congruence.
Qed.
Lemma bfind_none b s : bsorted s -> (bfind b s = None <-> forall x, x ∈ s -> place x <> place b).
Proof.
  intros Hs. split.
  - intros H x Hin Hp. assert (bfind b s = Some x) by (by apply bfind_iff). congruence.
  - intros H. destruct (bfind b s) as [x|] eqn:E; [|done]. apply bfind_iff in E as [Hin Hp]; [|done]. by destruct (H x).
Qed.
Lemma berase_in b s x : bsorted s -> (x ∈ berase b s <-> x ∈ s /\ place x <> place b).
Proof.
  induction s as [|y s IH]; intros Hs; cbn [berase].
  - rewrite elem_of_nil. tauto.
  - apply StronglySorted_inv in Hs as [Hs Hy]. destruct (bsame y b) eqn:E.
    + apply bsame_iff in E. split.
      * intros Hin. split; [by right|]. intros Hp. rewrite List.Forall_forall in Hy. apply elem_of_list_In in Hin. apply Hy in Hin. rewrite Hp, E in Hin. by apply before_irrefl in Hin.
      * intros [Hin Hp]. apply elem_of_cons in Hin as [->|Hin]; done.
    + rewrite !elem_of_cons, IH by done. assert (place y <> place b) by (intros Hp; apply bsame_iff in Hp; congruence). split; [intros [->|?]; tauto|tauto].
Qed.
Lemma berase_sorted b s : bsorted s -> bsorted (berase b s).
Proof.
  induction s as [|y s IH]; intros Hs; cbn [berase]; [done|]. apply StronglySorted_inv in Hs as [Hs Hy]. destruct (bsame y b); [done|].
  constructor; [by apply IH|]. rewrite List.Forall_forall in Hy |- *. intros x Hx. apply elem_of_list_In, berase_in in Hx as [Hx _]; [|done]. by apply Hy, elem_of_list_In.
Qed.
Lemma binsert_in b s x : (forall y, y ∈ s -> place y <> place b) -> (x ∈ binsert b s <-> x = b \/ x ∈ s).
Proof.
  induction s as [|y s IH]; intros H; cbn [binsert].
  - by rewrite elem_of_cons.
  - destruct (bpoint_lt b y) eqn:E1; [by rewrite elem_of_cons|]. destruct (bpoint_lt y b) eqn:E2.
    + rewrite !elem_of_cons, IH; [tauto|]. intros z Hz. apply H. by right.
    + destruct (H y); [left|]. apply bsame_iff. unfold bsame. by rewrite E1, E2.
Qed.
Lemma binsert_sorted b s : (forall y, y ∈ s -> place y <> place b) -> bsorted s -> bsorted (binsert b s).
Proof.
  induction s as [|y s IH]; intros H Hs; cbn [binsert].
  - constructor; constructor.
  - pose proof Hs as Hs0. apply StronglySorted_inv in Hs as [Hs Hy]. destruct (bpoint_lt b y) eqn:E1.
    + constructor; [done|]. apply bpoint_lt_iff in E1. constructor; [done|]. eapply List.Forall_impl; [|exact Hy]. cbn. intros z Hz. by eapply before_trans.
    + destruct (bpoint_lt y b) eqn:E2; [|done]. constructor; [apply IH; [intros z Hz; apply H; by right|done]|].
      apply List.Forall_forall. intros z Hz. apply elem_of_list_In, binsert_in in Hz; [|intros w Hw; apply H; by right].
      destruct Hz as [->|Hz]; [by apply bpoint_lt_iff|]. rewrite List.Forall_forall in Hy. by apply Hy, elem_of_list_In.
Qed.
Lemma add_points b s : bsorted s ->
  let s' := binsert b (match bfind b s with Some _ => berase b s | None => s end) in
  bsorted s' /\ forall x, x ∈ s' <-> x = b \/ x ∈ s /\ place x <> place b.
Proof.
  intros Hs s'. subst s'. destruct (bfind b s) as [y|] eqn:E.
  - assert (forall x, x ∈ berase b s -> place x <> place b) as Hn by (intros x Hx; by apply berase_in in Hx as [_ Hx]).
    split; [apply binsert_sorted; [done|by apply berase_sorted]|]. intros x. rewrite binsert_in by done. by rewrite berase_in.
  - pose proof (proj1 (bfind_none b s Hs) E) as Hn. split; [by apply binsert_sorted|]. intros x. rewrite binsert_in by done.
    split; [intros [->|H]; [by left|right; split; [done|by apply Hn]]|tauto].
Qed.

(** The break points after a history. *)
Definition dinv (h : list dop) (d : debugger) : Prop :=
  bsorted (d_points d) /\ d_next d = stepping h /\ forall b, b ∈ d_points d <-> condition_at h (b_file b) (b_line b) = Some (b_cond b).
Lemma place_eq a b : place a = place b <-> b_file b = b_file a /\ b_line b = b_line a.
Proof. unfold place. split; [by intros [= -> ->]|]. by intros [-> ->]. Qed.
Lemma bpoint_eta a b : place a = place b -> b_cond a = b_cond b -> a = b.
Proof. destruct a, b. unfold place. cbn. by intros [= -> ->] ->. Qed.
Lemma dinv_step o h d d' : dinv h d -> dstep o d = Ok d' -> dinv (o :: h) d'.
Proof.
  intros (Hs & Hn & Hp). destruct o as [b|b| |a|r|r]; cbn [dstep].
  - intros [= <-]. unfold add_point. destruct (add_points b (d_points d) Hs) as [Hs' Hin]. split_and!; [done|done|].
    intros x. cbn [set_points d_points condition_at]. rewrite Hin. case_decide as E.
    + apply place_eq in E. split; [intros [->|[_ H]]; congruence|]. intros [= H]. left. by apply bpoint_eta.
    + rewrite Hp. assert (place x <> place b) as N by (by rewrite place_eq). split; [intros [->|[H _]]; [by destruct N|done]|tauto].
  - unfold remove_point. destruct (bfind b (d_points d)) eqn:E; [|done]. cbn. intros [= <-]. split_and!; [by apply berase_sorted|done|].
    intros x. cbn [set_points d_points condition_at]. rewrite berase_in by done. case_decide as E'.
    + apply place_eq in E'. split; [by intros [_ H]|done].
    + rewrite Hp, place_eq. tauto.
  - intros [= <-]. split_and!; [constructor|done|]. intros x. cbn. rewrite elem_of_nil. split; [done|]. done.
  - intros [= <-]. done.
  - unfold register. destruct (d_receiver d); cbn; intros [= <-]; done.
  - unfold unregister. case_bool_decide; cbn; intros [= <-]; done.
Qed.
Lemma dinv_run ops : forall h d d', dinv h d -> drun ops d = Ok d' -> dinv (reverse ops ++ h) d'.
Proof.
  induction ops as [|o ops IH]; intros h d d' Hi; cbn [drun]; [by intros [= <-]|].
  destruct (dstep o d) as [d1| | |] eqn:E; cbn [rbind]; try done. intros H. rewrite reverse_cons, <- app_assoc. cbn. eapply IH; [|exact H]. by eapply dinv_step.
Qed.
Lemma dinv_init : dinv [] debugger_init.
Proof. split_and!; [constructor|done|]. intros b. cbn. rewrite elem_of_nil. by split. Qed.

(** ** Commands *)
Lemma parse_commands_word w rest : chr 32 ∉ w -> forall tok, parse_commands tok (w ++ rest) = parse_commands (tok ++ w) rest.
Proof.
  induction w as [|c w IH]; intros H tok; cbn [app parse_commands]; [by rewrite app_nil_r|].
  apply not_elem_of_cons in H as [Hc H]. rewrite bool_decide_eq_false_2 by congruence. rewrite IH by done. by rewrite <- app_assoc.
Qed.
Lemma parse_commands_cons w rest : plain w -> parse_commands [] (w ++ $" " ++ rest) = w :: parse_commands [] rest.
Proof.
  intros [Hn Hw]. change ($" " ++ rest) with (chr 32 :: rest). rewrite parse_commands_word by done. cbn [app parse_commands].
  rewrite bool_decide_eq_true_2 by done. by rewrite bool_decide_eq_false_2.
Qed.
Lemma parse_commands_last w : plain w -> parse_commands [] w = [w].
Proof.
  intros [Hn Hw]. rewrite <- (app_nil_r w) at 1. rewrite parse_commands_word by done. cbn [app parse_commands]. by rewrite bool_decide_eq_false_2.
Qed.
Lemma plain_by_bool s : negb (bool_decide (s = [])) && negb (mem (chr 32) s) = true -> plain s.
Proof.
  rewrite andb_true_iff, !negb_true_iff. unfold mem. rewrite !bool_decide_eq_false. done.
Qed.
Lemma digits_plain n : plain (print_int (Z.of_N n)).
Proof.
  assert (print_int (Z.of_N n) = digits n) as ->. { unfold print_int. destruct n; [done|]. cbn [Z.of_N]. done. }
  destruct (digits_ok n) as (Hd & _ & Hn). split; [done|]. intros Hin. rewrite Forall_forall in Hd. by apply Hd in Hin.
Qed.
(** The words of a stored break point. *)
Definition op_text (t : ctype) : str :=
  match t with CTEquals => $"==" | CTGreater => $">" | CTGreaterEqual => $">=" | CTLess => $"<" | CTLessEqual => $"<=" | CTUnequal => $"!=" | CTInvalid => [] end.
Lemma stored_words b : plain (b_file b) -> (b_cond b = no_condition \/ c_type (b_cond b) <> CTInvalid /\ plain (c_left (b_cond b)) /\ plain (c_right (b_cond b))) ->
  parse_commands [] ($"breakpoint " ++ bpoint_config b) =
    $"breakpoint" :: b_file b :: print_int (Z.of_N (b_line b)) ::
      (if condition_valid (b_cond b) then [c_left (b_cond b); op_text (c_type (b_cond b)); c_right (b_cond b)] else []).
Proof.
  intros Hf Hc. change ($"breakpoint ") with ($"breakpoint" ++ $" "). rewrite <- app_assoc. rewrite parse_commands_cons by (by apply plain_by_bool).
  f_equal. unfold bpoint_config. rewrite parse_commands_cons by done. f_equal. pose proof (digits_plain (b_line b)) as Hd.
  destruct Hc as [E|(Ht & Hl & Hr)].
  - rewrite E. cbn. rewrite app_nil_r. by apply parse_commands_last.
  - assert (condition_valid (b_cond b) = true) as -> by (unfold condition_valid; by rewrite bool_decide_eq_false_2).
    rewrite parse_commands_cons by done. f_equal. unfold condition_text. destruct (b_cond b) as [l t r]. cbn [c_left c_type c_right] in *.
    assert (forall op, plain op -> parse_commands [] (l ++ ($" " ++ op ++ $" ") ++ r) = [l; op; r]) as H.
    { intros op Hop. rewrite <- !app_assoc. rewrite parse_commands_cons by done. rewrite parse_commands_cons by done. by rewrite parse_commands_last. }
    destruct t; try done; [apply (H ($"=="))|apply (H ($">"))|apply (H ($">="))|apply (H ($"<"))|apply (H ($"<="))|apply (H ($"!="))]; by apply plain_by_bool.
Qed.
Lemma op_text_round t : condition_from_string (op_text t) = t.
Proof. by destruct t. Qed.
Lemma stored_added fullname b d : storable fullname b ->
  add_command fullname (parse_commands [] ($"breakpoint " ++ bpoint_config b)) d = (add_point b d, true).
Proof.
  intros (Hf & Hfull & Hl & Hc). rewrite stored_words by done. unfold add_command.
  assert (Z.to_N (string_to_int (print_int (Z.of_N (b_line b))) mod 2 ^ 32) = b_line b) as El.
  { rewrite <- (app_nil_r (print_int _)). rewrite string_to_int_print; [|unfold int64_min, int64_max; lia|done]. rewrite Z.mod_small by lia. lia. }
  destruct Hc as [E|(Ht & _)].
  - rewrite E. cbn [condition_valid no_condition c_type]. rewrite Hfull, El. destruct b as [c f l]. cbn in *. by rewrite E.
  - assert (condition_valid (b_cond b) = true) as -> by (unfold condition_valid; by rewrite bool_decide_eq_false_2).
    rewrite Hfull, El, op_text_round. by destruct b as [[] f l].
Qed.
Lemma binsert_last b s : (forall y, y ∈ s -> before (place y) (place b)) -> binsert b s = s ++ [b].
Proof.
  induction s as [|y s IH]; intros H; cbn [binsert]; [done|].
  assert (before (place y) (place b)) as Hy by (apply H; left). pose proof Hy as Hy2. apply bpoint_lt_iff in Hy.
  assert (bpoint_lt b y = false) as ->. { apply not_true_iff_false. rewrite bpoint_lt_iff. intros C. apply (before_irrefl (place y)). by eapply before_trans. }
  rewrite Hy. cbn [app]. f_equal. apply IH. intros z Hz. apply H. by right.
Qed.
Lemma add_last b d : bsorted (d_points d) -> (forall y, y ∈ d_points d -> before (place y) (place b)) -> add_point b d = set_points (d_points d ++ [b]) d.
Proof.
  intros Hs H. unfold add_point. assert (bfind b (d_points d) = None) as ->.
  { apply bfind_none; [done|]. intros x Hx E. apply H in Hx. rewrite E in Hx. by apply before_irrefl in Hx. }
  by rewrite binsert_last.
Qed.
Lemma sorted_app_inv p b s : bsorted (p ++ b :: s) -> bsorted p /\ (forall y, y ∈ p -> before (place y) (place b)).
Proof.
  induction p as [|x p IH]; intros H; cbn [app] in H.
  - split; [constructor|]. intros y Hy. by apply elem_of_nil in Hy.
  - apply StronglySorted_inv in H as [H Hx]. destruct (IH H) as [Hp Hb]. rewrite List.Forall_forall in Hx. split.
    + constructor; [done|]. apply List.Forall_forall. intros y Hy. apply Hx. apply in_or_app. by left.
    + intros y Hy. apply elem_of_cons in Hy as [->|Hy]; [|by apply Hb]. apply Hx. apply in_or_app. right. by left.
Qed.
Lemma load_stored fullname s : forall p d, bsorted (p ++ s) -> Forall (storable fullname) s -> d_points d = p ->
  d_points (load_points fullname (map bpoint_config s) d) = p ++ s.
Proof.
  induction s as [|b s IH]; intros p d Hs Hst Hd; cbn [map load_points fold_left]; [by rewrite app_nil_r|].
  apply Forall_cons in Hst as [Hb Hst]. rewrite stored_added by done. cbn [fst]. destruct (sorted_app_inv p b s Hs) as [Hp Hbef].
  rewrite add_last by (by rewrite Hd). unfold load_points in IH. rewrite (IH (p ++ [b])); [by rewrite <- app_assoc|by rewrite <- app_assoc|done|cbn; by rewrite Hd].
Qed.
Lemma berase_at s : bsorted s -> forall i b, s !! i = Some b -> berase b s = take i s ++ drop (S i) s.
Proof.
  induction s as [|y s IH]; intros Hs i b Hi; [done|]. apply StronglySorted_inv in Hs as [Hs Hy]. destruct i as [|i]; cbn in Hi.
  - injection Hi as ->. cbn [berase]. assert (bsame b b = true) as -> by (by apply bsame_iff). done.
  - cbn [berase]. assert (bsame y b = false) as ->.
    { apply not_true_iff_false. rewrite bsame_iff. intros E. rewrite List.Forall_forall in Hy. apply elem_of_list_lookup_2, elem_of_list_In, Hy in Hi.
      rewrite E in Hi. by apply before_irrefl in Hi. }
    cbn. f_equal. by apply IH.
Qed.
