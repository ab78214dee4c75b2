(** Proofs about the tokenizer of csvDB. *)
From Verif Require Import Base Text_Model Query_Model Query_Spec.

Lemma chars_bool c : mem c CHARS =
  let n := nat_of_ascii c in
  ((n =? 95)%nat || ((65 <=? n)%nat && (n <=? 90)%nat) || ((97 <=? n)%nat && (n <=? 122)%nat)) && negb (n =? 81)%nat && negb (n =? 113)%nat.
Proof. destruct c as [[] [] [] [] [] [] [] []]; vm_compute; reflexivity. Qed.
Lemma digits_bool c : mem c DIGITS = let n := nat_of_ascii c in ((48 <=? n)%nat && (n <=? 57)%nat).
Proof. destruct c as [[] [] [] [] [] [] [] []]; vm_compute; reflexivity. Qed.
Lemma code_inj c d : nat_of_ascii c = nat_of_ascii d -> c = d.
Proof. intros H. rewrite <- (ascii_nat_embedding c), <- (ascii_nat_embedding d). by rewrite H. Qed.
Lemma letter_chars c : letter c -> ~ is_q c -> mem c CHARS = true.
Proof.
  intros H Hq. rewrite chars_bool. cbv zeta.
  assert (nat_of_ascii c <> 81%nat) by (intros E; apply Hq; right; by apply code_inj).
  assert (nat_of_ascii c <> 113%nat) by (intros E; apply Hq; left; by apply code_inj).
  destruct (Nat.eqb_spec (nat_of_ascii c) 81); [done|]. destruct (Nat.eqb_spec (nat_of_ascii c) 113); [done|].
  cbn [negb]. rewrite !andb_true_r. destruct H as [-> |[H|H]]; [done| |].
  - rewrite (proj2 (Nat.leb_le 65 _)), (proj2 (Nat.leb_le _ 90)) by lia. by rewrite orb_true_r.
  - rewrite (proj2 (Nat.leb_le 97 _)), (proj2 (Nat.leb_le _ 122)) by lia. by rewrite orb_true_r.
Qed.
Lemma digit_digits c : digit c -> mem c DIGITS = true.
Proof. intros [H1 H2]. rewrite digits_bool. cbv zeta. by rewrite (proj2 (Nat.leb_le 48 _)), (proj2 (Nat.leb_le _ 57)) by lia. Qed.
Lemma digit_not_char c : digit c -> mem c CHARS = false.
Proof.
  intros [H1 H2]. rewrite chars_bool. cbv zeta. rewrite (proj2 (Nat.leb_gt 65 _)), (proj2 (Nat.leb_gt 97 _)) by lia.
  destruct (Nat.eqb_spec (nat_of_ascii c) 95); [lia|done].
Qed.
Lemma white_cases c : white c -> c = chr 32 \/ c = chr 9 \/ c = chr 10 \/ c = chr 13.
Proof. intros [H|[H|[H|H]]]; [left|right; left|do 2 right; left|do 3 right]; by apply code_inj. Qed.
Ltac whites H := apply white_cases in H as [-> |[-> |[-> | ->]]].

Lemma next_white ws s : Forall white ws -> next_token (ws ++ s) = next_token s.
Proof. induction 1 as [|c ws H _ IH]; [done|]. whites H; cbn [app]; exact IH. Qed.

Lemma not_chars c : ~ (letter c /\ ~ is_q c) -> mem c CHARS = false.
Proof.
  intros H. destruct (mem c CHARS) eqn:E; [|done]. exfalso. apply H. rewrite chars_bool in E. cbv zeta in E.
  apply andb_true_iff in E as [E E3]. apply andb_true_iff in E as [E E2].
  apply negb_true_iff, Nat.eqb_neq in E2. apply negb_true_iff, Nat.eqb_neq in E3. split.
  - apply orb_true_iff in E as [E|E]; [apply orb_true_iff in E as [E|E]|].
    + left. apply code_inj. by apply Nat.eqb_eq in E.
    + right; left. apply andb_true_iff in E as [E E']. apply Nat.leb_le in E, E'. lia.
    + right; right. apply andb_true_iff in E as [E E']. apply Nat.leb_le in E, E'. lia.
  - by intros [-> | ->].
Qed.
Lemma not_digits c : ~ digit c -> mem c DIGITS = false.
Proof.
  intros H. destruct (mem c DIGITS) eqn:E; [|done]. exfalso. apply H. rewrite digits_bool in E. cbv zeta in E.
  apply andb_true_iff in E as [E E']. apply Nat.leb_le in E, E'. done.
Qed.

Definition stop (r : str) : Prop := match r with [] => True | c :: _ => ~ digit c /\ ~ (letter c /\ ~ is_q c) end.
Lemma get_id_run w r : Forall (fun d => (letter d /\ ~ is_q d) \/ digit d) w -> stop r ->
  forall acc, get_id (w ++ r) acc = (word_token (acc ++ w), r).
Proof.
  induction 1 as [|c w H _ IH]; intros Hr acc.
  - rewrite app_nil_r. destruct r as [|c q]; [done|]. destruct Hr as [H1 H2]. cbn [app get_id].
    by rewrite not_chars, not_digits.
  - cbn [app get_id]. assert (mem c CHARS || mem c DIGITS = true) as ->.
    { destruct H as [[H1 H2]|H]; [by rewrite letter_chars|]. rewrite (digit_digits c) by done. apply orb_true_r. }
    rewrite (IH Hr). by rewrite <- app_assoc.
Qed.
Lemma get_digit_run w c q : Forall digit w -> ~ digit c ->
  forall acc, get_digit (w ++ c :: q) acc = Ok ((QInteger, acc ++ w), c :: q).
Proof.
  intros H Hc. induction H as [|d w H _ IH]; intros acc; cbn [app get_digit].
  - rewrite app_nil_r. by rewrite not_digits.
  - rewrite digit_digits, IH by done. by rewrite <- app_assoc.
Qed.
Lemma get_digit_end w : Forall digit w -> forall acc, get_digit w acc = Throw "OutOfBoundsException".
Proof. induction 1 as [|d w H _ IH]; intros acc; cbn [get_digit]; [done|]. rewrite digit_digits by done. apply IH. Qed.
Lemma quote_eqb c : c <> quote -> str_eqb [c] [quote] = false.
Proof. intros H. unfold str_eqb. apply bool_decide_eq_false. congruence. Qed.
Lemma get_string_run w r : quote ∉ w -> forall acc, get_string (w ++ quote :: r) acc = Ok ((QString, acc ++ w), r).
Proof.
  induction w as [|c w IH]; intros H acc; cbn [app get_string].
  - by rewrite app_nil_r.
  - apply not_elem_of_cons in H as [H1 H2]. rewrite quote_eqb by congruence. rewrite (IH H2). by rewrite <- app_assoc.
Qed.
Lemma get_string_end w : quote ∉ w -> forall acc, get_string w acc = Throw "OutOfBoundsException".
Proof.
  induction w as [|c w IH]; intros H acc; cbn [get_string]; [done|].
  apply not_elem_of_cons in H as [H1 H2]. rewrite quote_eqb by congruence. apply (IH H2).
Qed.

Lemma find_keyword u w :
  match List.find (fun t => str_eqb (snd t) u) RESERVED_WORDS with Some t => t | None => (QIdentifier, w) end =
  match keyword u with Some k => (k, u) | None => (QIdentifier, w) end.
Proof.
  destruct (decide (u = $"AND")) as [-> |N1]; [by vm_compute|]. destruct (decide (u = $"FALSE")) as [-> |N2]; [by vm_compute|].
  destruct (decide (u = $"TRUE")) as [-> |N3]; [by vm_compute|]. destruct (decide (u = $"ELSE")) as [-> |N4]; [by vm_compute|].
  destruct (decide (u = $"EXPLAIN")) as [-> |N5]; [by vm_compute|]. destruct (decide (u = $"FROM")) as [-> |N6]; [by vm_compute|].
  destruct (decide (u = $"IF")) as [-> |N7]; [by vm_compute|]. destruct (decide (u = $"LIMIT")) as [-> |N8]; [by vm_compute|].
  destruct (decide (u = $"OR")) as [-> |N9]; [by vm_compute|]. destruct (decide (u = $"SELECT")) as [-> |N10]; [by vm_compute|].
  destruct (decide (u = $"THEN")) as [-> |N11]; [by vm_compute|]. destruct (decide (u = $"WHERE")) as [-> |N12]; [by vm_compute|].
  unfold keyword. cbv zeta. rewrite !(bool_decide_eq_false_2 (u = _)) by done.
  unfold RESERVED_WORDS, str_eqb. cbn [List.find snd]. rewrite !(bool_decide_eq_false_2 (_ = u)) by congruence. done.
Qed.
Lemma word_next w r : letters w -> stop r ->
  next_token (w ++ r) = Ok (Some (match keyword (map to_upper w) with Some k => (k, map to_upper w) | None => (QIdentifier, w) end, r)).
Proof.
  intros [c v H1 H2 H3] Hr. cbn [app next_token]. rewrite letter_chars by done.
  change (c :: v ++ r) with ((c :: v) ++ r). rewrite (get_id_run (c :: v) r); [|constructor; [by left|done]|done].
  cbn [app]. unfold word_token. by rewrite find_keyword.
Qed.

Lemma keyword_stop w k r t : keyword w = Some k -> separate (k, t) r -> stop r.
Proof. unfold keyword. cbv zeta. destruct r as [|c r]; [done|]. intros E. repeat case_bool_decide; by simplify_eq. Qed.
Lemma sign_eqb c t : [c] <> t -> str_eqb [c] t = false.
Proof. intros H. unfold str_eqb. by apply bool_decide_eq_false. Qed.
Lemma less_next c q : c <> ">"%char -> c <> "="%char -> next_token ("<"%char :: c :: q) = Ok (Some ((QLess, ["<"%char]), c :: q)).
Proof.
  intros H1 H2. transitivity (rbind (get_sign "<"%char (c :: q)) (fun p => Ok (Some p))); [reflexivity|].
  unfold get_sign. cbv zeta. rewrite (sign_eqb c ($">")) by (by intros [= ->]). rewrite (sign_eqb c ($"=")) by (by intros [= ->]).
  reflexivity.
Qed.
Lemma greater_next c q : c <> "="%char -> next_token (">"%char :: c :: q) = Ok (Some ((QGreater, [">"%char]), c :: q)).
Proof.
  intros H. transitivity (rbind (get_sign ">"%char (c :: q)) (fun p => Ok (Some p))); [reflexivity|].
  unfold get_sign. cbv zeta. rewrite (sign_eqb c ($"=")) by (by intros [= ->]). reflexivity.
Qed.
Lemma piece_next p t r : stands p t -> separate t r -> next_token (p ++ r) = Ok (Some (t, r)).
Proof.
  intros [w k H E|w H E|w N H|w H|w k H] Hr.
  - rewrite word_next, E by (done || by eapply keyword_stop). done.
  - rewrite word_next, E; [done|done|]. by destruct r.
  - destruct r as [|c q]; [by destruct Hr|]. cbn in Hr. destruct w as [|d w]; [done|].
    inversion H as [|? ? Hd Hw]; subst. cbn [app next_token]. rewrite digit_not_char, digit_digits by done.
    change (d :: w ++ c :: q) with ((d :: w) ++ c :: q). rewrite get_digit_run by done. done.
  - cbn [app next_token]. rewrite <- app_assoc. cbn [app]. change (mem quote CHARS) with false. change (mem quote DIGITS) with false.
    change (mem quote WHITESPACES) with false. change (str_eqb [quote] [quote]) with true. cbv iota.
    rewrite get_string_run by done. done.
  - rewrite !elem_of_cons, elem_of_nil in H.
    repeat destruct H as [H|H]; try done; injection H as -> ->; try (vm_compute; reflexivity).
    + destruct r as [|c q]; [vm_compute; reflexivity|]. cbn in Hr. destruct Hr as [H1 H2]. by apply less_next.
    + destruct r as [|c q]; [vm_compute; reflexivity|]. cbn in Hr. by apply greater_next.
Qed.
Lemma stands_nonempty p t : stands p t -> p <> [].
Proof.
  intros [w k H E|w H E|w N H|w H|w k H].
  - by destruct H. - by destruct H. - done. - done.
  - rewrite !elem_of_cons, elem_of_nil in H. repeat destruct H as [H|H]; try done; injection H as -> ->; done.
Qed.
Lemma parse_white ws s fuel : Forall white ws -> parse fuel (ws ++ s) = parse fuel s.
Proof. intros H. destruct fuel; [done|]. cbn [parse]. by rewrite next_white. Qed.

(** What is in front of the rest of a query. *)
Lemma query_front s q l : query s q l -> forall fuel, (length (q ++ s) < fuel)%nat ->
  exists n, (length s < n)%nat /\ parse fuel (q ++ s) = rbind (parse n s) (fun r => Ok (l ++ r)).
Proof.
  induction 1 as [ws H|ws p t q l Hw Hp Hs _ IH]; intros fuel Hf.
  - exists fuel. rewrite app_length in Hf. split; [lia|]. rewrite parse_white by done. by destruct (parse fuel s).
  - rewrite <- app_assoc, parse_white by done. rewrite <- app_assoc. rewrite !app_length in Hf.
    destruct fuel as [|fuel]; [lia|]. cbn [parse]. rewrite (piece_next p t) by done. cbn [rbind].
    assert (length p <> 0%nat) by (destruct p; [by destruct (stands_nonempty _ _ Hp)|done]).
    destruct (IH fuel) as (n & Hn & E); [rewrite app_length; lia|]. exists n. split; [done|]. rewrite E.
    by destruct (parse n s).
Qed.
