(** Proofs about configuration files and paths (C47, C48). *)
From Verif Require Import Base Base_Proofs Text_Model Conf_Model Conf_Spec.

Lemma conf_delim_iff c : conf_delim c = true <-> c ∈ separators.
Proof. unfold conf_delim, mem. apply bool_decide_eq_true. Qed.
Lemma conf_delim_false c : conf_delim c = false <-> c ∉ separators.
Proof. unfold conf_delim, mem. apply bool_decide_eq_false. Qed.
Lemma skip_split f s : exists d, s = d ++ skip_while f s /\ Forall (fun c => f c = true) d /\
  match skip_while f s with [] => True | c :: _ => f c = false end.
Proof.
  induction s as [|c s (d & E & Hd & Hh)]; cbn [skip_while]; [by exists []|].
  destruct (f c) eqn:Hc; [exists (c :: d)|exists []; by rewrite Hc].
  split_and!; [cbn; by rewrite <- E|by constructor|done].
Qed.
Lemma take_skip f s : s = take_while f s ++ skip_while f s.
Proof. induction s as [|c s IH]; cbn; [done|]. destruct (f c); cbn; [by rewrite <- IH|done]. Qed.
Lemma take_all f s : Forall (fun c => f c = true) (take_while f s).
Proof. induction s as [|c s IH]; cbn; [done|]. destruct (f c) eqn:E; [by constructor|done]. Qed.
Lemma skip_pre f d s : Forall (fun c => f c = true) d -> match s with [] => True | c :: _ => f c = false end -> skip_while f (d ++ s) = s.
Proof.
  induction d as [|c d IH]; intros Hd Hs; cbn.
  - destruct s as [|c s]; [done|]. cbn. by rewrite Hs.
  - apply Forall_cons in Hd as [-> Hd]. by apply IH.
Qed.
Lemma take_pre f d s : Forall (fun c => f c = true) d -> match s with [] => True | c :: _ => f c = false end -> take_while f (d ++ s) = d.
Proof.
  induction d as [|c d IH]; intros Hd Hs; cbn.
  - destruct s as [|c s]; [done|]. cbn. by rewrite Hs.
  - apply Forall_cons in Hd as [-> Hd]. by rewrite IH.
Qed.

Lemma next_none s : next_token s = None <-> Forall (fun c => c ∈ separators) s.
Proof.
  unfold next_token. destruct (skip_split conf_delim s) as (d & E & Hd & Hh).
  destruct (skip_while conf_delim s) as [|c r]; split; try done.
  - intros _. rewrite E, app_nil_r. eapply Forall_impl; [exact Hd|]. intros c. apply conf_delim_iff.
  - intros Hf. rewrite E in Hf. apply Forall_app in Hf as [_ Hf]. apply Forall_cons in Hf as [Hc _]. apply conf_delim_iff in Hc. congruence.
Qed.
Lemma next_some s w rest : next_token s = Some (w, rest) <->
  exists d, s = d ++ w ++ rest /\ Forall (fun c => c ∈ separators) d /\ w <> [] /\ Forall (fun c => c ∉ separators) w /\
    match rest with [] => True | c :: _ => c ∈ separators end.
Proof.
  unfold next_token. split.
  - destruct (skip_split conf_delim s) as (d & E & Hd & Hh). destruct (skip_while conf_delim s) as [|c r] eqn:Es; [done|].
    intros H. assert (w = take_while (fun c => negb (conf_delim c)) (c :: r) /\ rest = skip_while (fun c => negb (conf_delim c)) (c :: r)) as [-> ->] by (split; congruence).
    exists d.
    pose proof (take_skip (fun c => negb (conf_delim c)) (c :: r)) as Ets.
    destruct (skip_split (fun c => negb (conf_delim c)) (c :: r)) as (d2 & _ & _ & Hh2).
    split_and!.
    + rewrite E. f_equal. exact Ets.
    + eapply Forall_impl; [exact Hd|]. intros x. apply conf_delim_iff.
    + cbn [take_while]. by rewrite Hh.
    + pose proof (take_all (fun c => negb (conf_delim c)) (c :: r)) as Hta. eapply Forall_impl; [exact Hta|]. cbn. intros x Hx. apply negb_true_iff in Hx. by apply conf_delim_false.
    + destruct (skip_while _ (c :: r)); [done|]. apply negb_false_iff in Hh2. by apply conf_delim_iff.
  - intros (d & -> & Hd & Hn & Hw & Hr).
    assert (skip_while conf_delim (d ++ w ++ rest) = w ++ rest) as ->.
    { apply skip_pre; [eapply Forall_impl; [exact Hd|]; intros x; apply conf_delim_iff|].
      destruct w as [|x w]; [done|]. cbn. apply Forall_cons in Hw as [Hw _]. by apply conf_delim_false. }
    assert (Hw' : Forall (fun c => negb (conf_delim c) = true) w).
    { eapply Forall_impl; [exact Hw|]. cbn. intros x Hx. apply negb_true_iff. by apply conf_delim_false. }
    assert (Hr' : match rest with [] => True | c :: _ => negb (conf_delim c) = false end).
    { destruct rest; [done|]. apply negb_false_iff. by apply conf_delim_iff. }
    destruct (w ++ rest) as [|x r] eqn:E; [by destruct w|]. rewrite <- E. by rewrite take_pre, skip_pre.
Qed.
Lemma next_shorter s w rest : next_token s = Some (w, rest) -> (length rest < length s)%nat.
Proof.
  intros H. apply next_some in H as (d & -> & _ & Hn & _). rewrite !app_length. destruct w; [done|]. cbn. lia.
Qed.
Lemma words_step s : 
  (next_token s = None /\ words s []) \/
  (exists w rest, next_token s = Some (w, rest) /\ forall ws, words rest ws -> words s (w :: ws)).
Proof.
  destruct (next_token s) as [[w rest]|] eqn:E.
  - right. exists w, rest. split; [done|]. intros ws Hws. apply next_some in E as (d & -> & Hd & Hn & Hw & Hr). by constructor.
  - left. split; [done|]. constructor. by apply next_none.
Qed.
Lemma words_inv_nil s : words s [] <-> next_token s = None.
Proof. rewrite next_none. split; [intros H; by inversion H|by constructor]. Qed.
Lemma words_inv_cons s w ws : words s (w :: ws) <-> exists rest, next_token s = Some (w, rest) /\ words rest ws.
Proof.
  split.
  - intros H. inversion H as [|d w' rest ws' Hd Hn Hw Hr Hws E1 E2]; subst. exists rest. split; [|done].
    apply next_some. exists d. done.
  - intros (rest & H & Hws). apply next_some in H as (d & -> & Hd & Hn & Hw & Hr). by constructor.
Qed.
Lemma words_total s : exists ws, words s ws.
Proof.
  remember (length s) as n eqn:En. assert (length s <= n)%nat as Hl by lia. clear En. revert s Hl.
  induction n as [|n IH]; intros s Hl.
  - destruct s; [|cbn in Hl; lia]. exists []. by constructor.
  - destruct (words_step s) as [[_ H]|(w & rest & E & H)]; [eauto|]. apply next_shorter in E as El.
    destruct (IH rest) as [ws Hws]; [lia|]. eauto.
Qed.
Lemma words_fun s ws : words s ws -> forall ws', words s ws' -> ws = ws'.
Proof.
  intros H. remember ws as ws0. revert s H. induction ws as [|w ws IH] in ws0, Heqws0 |- *; subst; intros s H ws' H'.
  - apply words_inv_nil in H. destruct ws' as [|w ws']; [done|]. apply words_inv_cons in H' as (r & E & _). congruence.
  - apply words_inv_cons in H as (r & E & Hr). destruct ws' as [|w' ws'].
    + apply words_inv_nil in H'. congruence.
    + apply words_inv_cons in H' as (r' & E' & Hr'). rewrite E in E'. injection E' as <- <-. f_equal. by eapply IH.
Qed.
(** The value a loop started with [value] ends with. *)
Definition cat (value w : str) : str := (if bool_decide (value = []) then value else value ++ $" ") ++ w.
Lemma line_value_words fuel : forall value rest ws, words rest ws -> (length rest < fuel)%nat ->
  line_value fuel value rest = Ok (fold_left cat ws value).
Proof.
  induction fuel as [|fuel IH]; intros value rest ws H Hl; [lia|]. cbn [line_value]. destruct ws as [|w ws].
  - apply words_inv_nil in H. by rewrite H.
  - apply words_inv_cons in H as (r & E & Hr). rewrite E. apply next_shorter in E. rewrite (IH _ r ws); [done|done|lia].
Qed.
Lemma fold_cat ws : Forall (fun w => w <> []) ws -> forall v, v <> [] -> fold_left cat ws v = match ws with [] => v | _ => v ++ $" " ++ joined ws end.
Proof.
  induction ws as [|w ws IH]; intros Hf v Hv; [done|]. apply Forall_cons in Hf as [Hw Hf]. cbn [fold_left].
  assert (cat v w = v ++ $" " ++ w) as ->. { unfold cat. by rewrite bool_decide_eq_false_2, <- app_assoc. }
  rewrite IH; [|done|by destruct v]. destruct ws as [|w2 ws]; [done|]. cbn [joined]. by rewrite <- !app_assoc.
Qed.
Lemma words_nonempty s ws : words s ws -> Forall (fun w => w <> []) ws.
Proof. intros H. induction H; by constructor. Qed.
Lemma fold_cat_nil ws : Forall (fun w => w <> []) ws -> fold_left cat ws [] = joined ws.
Proof.
  intros Hf. destruct ws as [|w ws]; [done|]. apply Forall_cons in Hf as [Hw Hf]. cbn [fold_left].
  change (cat [] w) with w. rewrite fold_cat by done. by destruct ws.
Qed.
Lemma parse_line_iff l k ty v : parse_line l = Ok (Some (k, (ty, v))) <-> sets l k ty v.
Proof.
  unfold parse_line, sets. split.
  - destruct (next_token l) as [[n r]|] eqn:E1; [|done]. destruct (next_token r) as [[t r2]|] eqn:E2; [|done].
    destruct (words_total r2) as [ws Hws]. rewrite (line_value_words _ _ _ ws) by (done || lia). cbn [rbind]. intros [= <- <- <-].
    exists ws. split; [|by eapply fold_cat_nil, words_nonempty]. apply words_inv_cons. exists r. split; [done|]. apply words_inv_cons. eauto.
  - intros (ws & Hw & ->). apply words_inv_cons in Hw as (r & -> & Hw). apply words_inv_cons in Hw as (r2 & -> & Hw).
    rewrite (line_value_words _ _ _ ws) by (done || lia). cbn [rbind]. rewrite fold_cat_nil; [done|]. by eapply words_nonempty.
Qed.
Lemma parse_line_total l : parse_line l = Ok None /\ (forall k ty v, ~ sets l k ty v) \/ exists k ty v, k <> [] /\ parse_line l = Ok (Some (k, (ty, v))).
Proof.
  destruct (words_total l) as [ws Hws]. destruct ws as [|k [|ty ws]].
  - left. split.
    + unfold parse_line. apply words_inv_nil in Hws. by rewrite Hws.
    + intros k ty v (ws & Hw & _). by pose proof (words_fun _ _ Hws _ Hw).
  - left. split.
    + unfold parse_line. apply words_inv_cons in Hws as (r & -> & Hws). apply words_inv_nil in Hws. by rewrite Hws.
    + intros k' ty v (ws & Hw & _). by pose proof (words_fun _ _ Hws _ Hw).
  - right. exists k, ty, (joined ws). split; [|apply parse_line_iff; by exists ws].
    apply words_nonempty in Hws. by apply Forall_cons in Hws as [? _].
Qed.

(** ** The map *)
Lemma map_find_set k v m k' : map_find k' (map_set k v m) = if decide (k = k') then Some v else map_find k' m.
Proof.
  induction m as [|[k1 v1] m IH]; cbn [map_set].
  - cbn [map_find]. unfold str_eqb. case_bool_decide; case_decide; done.
  - destruct (str_ltb k k1) eqn:L.
    + cbn [map_find]. unfold str_eqb at 1. case_bool_decide; case_decide; done.
    + unfold str_eqb at 1. case_bool_decide as E.
      * subst k1. cbn [map_find]. unfold str_eqb. case_bool_decide; case_decide; done.
      * cbn [map_find]. rewrite IH. unfold str_eqb. case_bool_decide; case_decide; try done. congruence.
Qed.
Lemma is_member_find m k : existsb (fun e : str * (str * str) => str_eqb (fst e) k) m = true <-> exists v, map_find k m = Some v.
Proof.
  induction m as [|[k1 v1] m IH]; cbn [existsb map_find fst].
  - split; [done|by intros []].
  - destruct (str_eqb k1 k); cbn [orb]; [split; eauto|done].
Qed.

Lemma conf_split_spec ls : forall m m' k, conf_split m ls = Ok m' ->
  (forall ty v, last_setting ls k ty v -> map_find k m' = Some (ty, v)) /\
  ((forall l, l ∈ ls -> forall ty v, ~ sets l k ty v) -> map_find k m' = map_find k m).
Proof.
  induction ls as [|l ls IH]; intros m m' k H; cbn [conf_split] in H.
  - injection H as <-. split; [|done]. intros ty v (b & x & a & E & _). by destruct b.
  - destruct (parse_line_total l) as [[E Hno]|(n & t & v0 & Hn & E)]; rewrite E in H; cbn [rbind] in H.
    + destruct (IH _ _ k H) as [H1 H2]. split.
      * intros ty v (b & x & a & Eq & Hs & Ha). destruct b as [|y b]; injection Eq as -> ->; [by destruct (Hno k ty v)|].
        apply H1. by exists b, x, a.
      * intros Hall. apply H2. intros x Hx. apply Hall. by right.
    + rewrite bool_decide_eq_false_2 in H by done. destruct (IH _ _ k H) as [H1 H2]. apply parse_line_iff in E.
      split.
      * intros ty v (b & x & a & Eq & Hs & Ha). destruct b as [|y b]; injection Eq as -> ->; [|apply H1; by exists b, x, a].
        rewrite H2 by done. rewrite map_find_set. destruct E as (w1 & E1 & ->), Hs as (w2 & E2 & ->).
        pose proof (words_fun _ _ E1 _ E2) as [= -> -> ->]. by rewrite decide_True.
      * intros Hall. rewrite H2 by (intros x Hx; apply Hall; by right). rewrite map_find_set. rewrite decide_False; [done|].
        intros ->. by apply (Hall l (elem_of_list_here _ _) t v0).
Qed.
Lemma conf_split_ok ls : forall m, exists m', conf_split m ls = Ok m'.
Proof.
  induction ls as [|l ls IH]; intros m; cbn [conf_split]; [eauto|].
  destruct (parse_line_total l) as [[E _]|(n & t & v0 & Hn & E)]; rewrite E; cbn [rbind]; [apply IH|].
  rewrite bool_decide_eq_false_2 by done. apply IH.
Qed.
Lemma sets_dec l k : (exists ty v, sets l k ty v) \/ (forall ty v, ~ sets l k ty v).
Proof.
  destruct (parse_line_total l) as [[E Hno]|(n & t & v0 & Hn & E)]; [by right|]. apply parse_line_iff in E.
  destruct (decide (n = k)) as [->|N]; [left; eauto|]. right. intros ty v (ws & Hw & _). destruct E as (ws' & Hw' & _).
  pose proof (words_fun _ _ Hw _ Hw') as [= -> _]. done.
Qed.
Lemma last_setting_dec ls k : (exists ty v, last_setting ls k ty v) \/ (forall l, l ∈ ls -> forall ty v, ~ sets l k ty v).
Proof.
  induction ls as [|l ls [(ty & v & b & x & a & -> & Hs & Ha)|Hno]].
  - right. intros l H. by apply elem_of_nil in H.
  - left. exists ty, v, (l :: b), x, a. done.
  - destruct (sets_dec l k) as [(ty & v & Hs)|Hn].
    + left. exists ty, v, [], l, ls. done.
    + right. intros x Hx. apply elem_of_cons in Hx as [->|Hx]; [done|]. by apply Hno.
Qed.
Lemma conf_split_iff ls m' k ty v : conf_split [] ls = Ok m' -> (map_find k m' = Some (ty, v) <-> last_setting ls k ty v).
Proof.
  intros H. destruct (conf_split_spec ls [] m' k H) as [H1 H2]. split; [|apply H1].
  intros Hf. destruct (last_setting_dec ls k) as [(ty' & v' & Hl)|Hno].
  - rewrite (H1 _ _ Hl) in Hf. by injection Hf as <- <-.
  - by rewrite H2 in Hf.
Qed.

(** ** Lines *)
Lemma conf_lines_no rest : chr 10 ∉ rest -> forall l, conf_lines l rest = [].
Proof.
  induction rest as [|c r IH]; intros H l; cbn; [done|]. rewrite bool_decide_eq_false_2; [apply IH|]; set_solver.
Qed.
Lemma conf_lines_line x : chr 10 ∉ x -> forall l data, conf_lines l (x ++ chr 10 :: data) = (l ++ x) :: conf_lines [] data.
Proof.
  induction x as [|c x IH]; intros H l data; cbn.
  - by rewrite app_nil_r.
  - rewrite bool_decide_eq_false_2 by set_solver. rewrite IH by set_solver. by rewrite <- app_assoc.
Qed.
Lemma conf_lines_iff data ls : has_lines data ls <-> conf_lines [] data = ls.
Proof.
  split.
  - intros (rest & -> & Hr & Hf). induction ls as [|l ls IH]; cbn [ended map concat app]; [by apply conf_lines_no|].
    apply Forall_cons in Hf as [Hl Hf]. rewrite <- !app_assoc. cbn [app]. rewrite conf_lines_line by done. cbn [app]. f_equal. by apply IH.
  - intros <-. assert (forall l, chr 10 ∉ l -> exists rest, l ++ data = ended (conf_lines l data) ++ rest /\ chr 10 ∉ rest /\ Forall (fun l => chr 10 ∉ l) (conf_lines l data)) as H.
    + induction data as [|c data IH]; intros l Hl; cbn [conf_lines].
      * exists l. by rewrite app_nil_r.
      * case_bool_decide as E.
        -- subst c. destruct (IH [] ltac:(set_solver)) as (rest & Er & Hr & Hf). exists rest. split_and!; [|done|by constructor].
           cbn [ended map concat]. cbn [app] in Er. rewrite <- !app_assoc. f_equal. cbn [app]. f_equal. done.
        -- destruct (IH (l ++ [c]) ltac:(set_solver)) as (rest & Er & Hr & Hf). exists rest. split_and!; try done. by rewrite <- app_assoc in Er.
    + destruct (H []) as (rest & Er & Hr & Hf); [set_solver|]. by exists rest.
Qed.

(** ** Paths *)
Lemma split_last_sound f s a x b : split_last f s = Some (a, x, b) -> s = a ++ x :: b /\ f x = true /\ Forall (fun c => f c = false) b.
Proof.
  revert a x b. induction s as [|c s IH]; intros a x b; cbn [split_last]; [done|].
  destruct (split_last f s) as [[[a1 x1] b1]|] eqn:E.
  - intros [= <- <- <-]. destruct (IH _ _ _ eq_refl) as (-> & Hx & Hb). done.
  - destruct (f c) eqn:Hc; [|done]. intros [= <- <- <-]. split_and!; [done|done|].
    clear IH Hc. induction s as [|d s IH]; [constructor|]. cbn [split_last] in E.
    destruct (split_last f s) as [[[]]|]; [done|]. destruct (f d) eqn:Hd; [done|]. constructor; [done|by apply IH].
Qed.
Lemma split_last_none f s : split_last f s = None <-> Forall (fun c => f c = false) s.
Proof.
  split.
  - induction s as [|c s IH]; cbn; [done|]. destruct (split_last f s) as [[[]]|]; [done|]. destruct (f c) eqn:E; [done|].
    intros _. constructor; [done|by apply IH].
  - intros H. destruct (split_last f s) as [[[a x] b]|] eqn:E; [|done]. apply split_last_sound in E as (-> & Hx & _).
    apply Forall_app in H as [_ H]. apply Forall_cons in H as [C _]. congruence.
Qed.
Lemma split_last_complete f a x b : f x = true -> Forall (fun c => f c = false) b -> split_last f (a ++ x :: b) = Some (a, x, b).
Proof.
  intros Hx Hb. induction a as [|c a IH]; cbn [app split_last].
  - rewrite (proj2 (split_last_none f b) Hb). by rewrite Hx.
  - by rewrite IH.
Qed.
Lemma is_separator_iff c : is_separator c = true <-> c = chr 92 \/ c = chr 47.
Proof. unfold is_separator, mem. rewrite bool_decide_eq_true. rewrite !elem_of_cons. split; [intros [H|[H|H]]; [tauto|tauto|by apply elem_of_nil in H]|tauto]. Qed.
Lemma has_separator_iff p : has_separator p <-> split_last is_separator p <> None.
Proof.
  unfold has_separator. rewrite split_last_none. split.
  - intros [H|H] Hf; rewrite Forall_forall in Hf; by apply Hf in H.
  - intros H. destruct (split_last is_separator p) as [[[a x] b]|] eqn:E.
    + apply split_last_sound in E as (-> & Hx & _). apply is_separator_iff in Hx as [-> | ->]; [left|right]; apply elem_of_app; right; left.
    + by apply split_last_none in E.
Qed.
