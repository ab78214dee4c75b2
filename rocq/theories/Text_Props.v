(** Property C46: splitting and trimming. *)
From Verif Require Import Base Text_Model Text_Proofs.

(** [w] is [s] without leading and trailing characters of [t]. *)
Definition trimmed (t s w : str) : Prop :=
  exists l r, s = l ++ w ++ r /\ Forall (fun c => c ∈ t) l /\ Forall (fun c => c ∈ t) r /\
    (forall c w', w = c :: w' -> c ∉ t) /\ (forall c w', w = w' ++ [c] -> c ∉ t).

Theorem C46_split_at_first s c :
  (c ∈ s -> s = fst (split_by s c) ++ c :: snd (split_by s c) /\ c ∉ fst (split_by s c)) /\
  (c ∉ s -> split_by s c = (s, [])).
Proof.
  split; [|apply split_by_none]. intros H. unfold split_by.
  destruct (find_first c s) as [i|] eqn:E; [by apply find_first_Some|].
  by apply find_first_None in E.
Qed.
Theorem C46_split_of_join p q c : c ∉ p -> split_by (p ++ c :: q) c = (p, q).
Proof. apply split_by_app. Qed.

Theorem C46_trim_exact t s : trimmed t s (trim t s).
Proof.
  unfold trim, trim_right.
  destruct (trim_left_split t (reverse s)) as (r&Hr&HrT).
  set (m := trim_left t (reverse s)) in *.
  assert (Hs : s = reverse m ++ reverse r).
  { rewrite <- (reverse_involutive s), Hr, reverse_app. done. }
  destruct (trim_left_split t (reverse m)) as (l&Hl&HlT).
  exists l, (reverse r). split; [rewrite Hs at 1; rewrite Hl at 1; by rewrite <- (assoc_L (++))|].
  split; [done|]. split; [by apply Forall_reverse|]. split.
  - intros c w. apply trim_left_head.
  - intros c w Hw. rewrite Hw in Hl.
    assert (Hm : m = c :: reverse (l ++ w)).
    { rewrite <- (reverse_involutive m), Hl, (assoc_L (++)), reverse_snoc. done. }
    by apply (trim_left_head t (reverse s) c (reverse (l ++ w))).
Qed.
(** The trimmed text is unique, so trimming removes exactly these characters. *)
Lemma trimmed_unique t s w w' : trimmed t s w -> trimmed t s w' -> w = w'.
Proof.
  assert (K : forall l w r, Forall (fun c => c ∈ t) l -> Forall (fun c => c ∈ t) r ->
     (forall c w', w = c :: w' -> c ∉ t) -> (forall c w', w = w' ++ [c] -> c ∉ t) ->
     reverse (trim_left t (reverse (trim_left t (l ++ w ++ r)))) = w).
  { intros l v r Hl Hr H1 H2. rewrite trim_left_app by done.
    destruct v as [|c v].
    - cbn [app]. rewrite <- (app_nil_r r), trim_left_app by done. done.
    - rewrite (trim_left_id t ((c :: v) ++ r)); [|intros x y [= <- _]; by eapply H1].
      rewrite reverse_app, trim_left_app by (by apply Forall_reverse).
      rewrite trim_left_id; [apply reverse_involutive|].
      intros x y Hx. apply (H2 x (reverse y)). rewrite <- (reverse_involutive (c :: v)), Hx.
      by rewrite reverse_cons. }
  intros (l&r&->&H1&H2&H3&H4) (l'&r'&E&H1'&H2'&H3'&H4').
  rewrite <- (K l w r H1 H2 H3 H4), E. by apply K.
Qed.
Theorem C46_trim_characterised t s w : trim t s = w <-> trimmed t s w.
Proof.
  split; [intros <-; apply C46_trim_exact|]. intros H.
  eapply trimmed_unique; [apply C46_trim_exact|done].
Qed.
Theorem C46_trim_idempotent t s : trim t (trim t s) = trim t s.
Proof.
  apply C46_trim_characterised. destruct (C46_trim_exact t s) as (l&r&_&_&_&H1&H2).
  exists [], []. rewrite app_nil_r. split_and!; auto.
Qed.
(** extract undoes quoting with either quote character. *)
Theorem C46_extract_quoted q s : q = chr 34 \/ q = chr 39 -> extract (q :: s ++ [q]) = s.
Proof.
  intros Hq. unfold extract.
  assert (E : strip_quotes (q :: s ++ [q]) q = s).
  { unfold strip_quotes. cbn [head]. assert (last (q :: s ++ [q]) = Some q) as -> by (by rewrite app_comm_cons, last_snoc).
    rewrite bool_decide_true by done. cbn [andb drop]. rewrite drop_0. cbn [length]. rewrite app_length. cbn [length].
    replace (S (length s + 1) - 2)%nat with (length s) by lia. by rewrite take_app. }
  destruct Hq as [->| ->]; [by rewrite bool_decide_true|].
  rewrite bool_decide_false by done. by rewrite bool_decide_true.
Qed.
(** Texts compare as equal without case exactly when they are equal once all their letters are small. *)
Lemma upper_lower (a b : ascii) : to_upper a = to_upper b <-> to_lower a = to_lower b.
Proof.
  assert (forall c, to_lower (to_upper c) = to_lower c) as H1.
  { intros c. pose proof (char_forall (fun c => bool_decide (to_lower (to_upper c) = to_lower c)) ltac:(by vm_compute) c) as H. by apply bool_decide_eq_true in H. }
  assert (forall c, to_upper (to_lower c) = to_upper c) as H2.
  { intros c. pose proof (char_forall (fun c => bool_decide (to_upper (to_lower c) = to_upper c)) ltac:(by vm_compute) c) as H. by apply bool_decide_eq_true in H. }
  split; intros H; [rewrite <- (H1 a), <- (H1 b)|rewrite <- (H2 a), <- (H2 b)]; by rewrite H.
Qed.
Theorem C46_compare_without_case a b : string_compare_i a b = true <-> to_lower_case a = to_lower_case b.
Proof.
  unfold string_compare_i, to_lower_case. revert b. induction a as [|x a IH]; intros [|y b]; try (cbn; split; [discriminate|discriminate]); [done|].
  cbn [length Nat.eqb zip zip_with forallb fst snd map].
  assert (forall (p q r : bool), p && (q && r) = q && (p && r)) as -> by (by intros [] [] []).
  rewrite andb_true_iff, bool_decide_eq_true. rewrite IH, upper_lower. split; [by intros [-> ->]|by intros [= -> ->]].
Qed.
Example C46_compare_case : string_compare_i ($"Content-TYPE") ($"content-type") = true /\ string_compare_i ($"a1") ($"a2") = false.
Proof. by vm_compute. Qed.
Example C46_case : split_by ($"a.b.c") (chr 46) = ($"a", $"b.c") /\ trim ($" ") ($"  a b ") = $"a b" /\
  split_by ($"abc") (chr 46) = ($"abc", []) /\ trim ($" ") ($"   ") = [].
Proof. by vm_compute. Qed.

Print Assumptions C46_split_at_first.
Print Assumptions C46_split_of_join.
Print Assumptions C46_trim_exact.
Print Assumptions C46_trim_characterised.
Print Assumptions C46_trim_idempotent.
Print Assumptions C46_extract_quoted.
Print Assumptions C46_compare_without_case.
