(** C82: the tokens of a query. *)
From Verif Require Import Base Text_Model Query_Model Query_Spec Query_Proofs.

(** A query is read as its tokens: words that mean something in any mixture of small and capital letters, names and texts as
    they are, with any white space between them, or none where two pieces cannot be taken for one. *)
Theorem C82_tokens_partial q l : query [] q l -> answers q (Ok (l ++ [(QEof, [])])).
Proof.
  intros H fuel Hf. destruct (query_front [] q l H fuel) as (n & Hn & E); [by rewrite app_nil_r|].
  rewrite app_nil_r in E. rewrite E. destruct n; [lia|]. done.
Qed.
Print Assumptions C82_tokens_partial.
Example C82_tokens_ex :
  query [] ($"Select name,x_2<=10 ""a q b""") [(QSelect, $"SELECT"); (QIdentifier, $"name"); (QComma, $","); (QIdentifier, $"x_2");
    (QLessEqual, $"<="); (QInteger, $"10"); (QString, $"a q b")] /\
  parse 100 ($"Select name,x_2<=10 ""a q b""") =
    Ok [(QSelect, $"SELECT"); (QIdentifier, $"name"); (QComma, $","); (QIdentifier, $"x_2"); (QLessEqual, $"<=");
        (QInteger, $"10"); (QString, $"a q b"); (QEof, [])].
Proof.
  assert (W : white (chr 32)) by (by left).
  assert (L : forall c, (97 <= nat_of_ascii c <= 122)%nat -> nat_of_ascii c <> 113%nat -> letter c /\ ~ is_q c).
  { intros c H N. split; [right; right; done|]. intros [-> | ->]; [by apply N|]. vm_compute in H. lia. }
  assert (D : forall c, ~ (48 <= nat_of_ascii c <= 57)%nat -> nat_of_ascii c <> 95%nat -> ~ (65 <= nat_of_ascii c <= 90)%nat ->
    ~ (97 <= nat_of_ascii c <= 122)%nat -> ~ digit c /\ ~ (letter c /\ ~ is_q c)).
  { intros c H1 H2 H3 H4. split; [done|]. intros [[-> |[H|H]] _]; [by apply H2|done|done]. }
  split; [|by vm_compute].
  apply (query_piece [] [] ($"Select") _ ($" name,x_2<=10 ""a q b""")); [done| |apply D; vm_compute; lia|].
  { apply (stands_keyword ($"Select")); [|done]. constructor.
    - right; left. vm_compute. lia.
    - by intros [|].
    - repeat (constructor; [left; apply L; vm_compute; [lia|done]|]). constructor. }
  apply (query_piece [] ($" ") ($"name") _ ($",x_2<=10 ""a q b""")); [by constructor| |apply D; vm_compute; lia|].
  { apply stands_name; [|done]. constructor; [apply L; vm_compute; [lia|done]|by intros [|]|].
    repeat (constructor; [left; apply L; vm_compute; [lia|done]|]). constructor. }
  apply (query_piece [] [] ($",") _ ($"x_2<=10 ""a q b""")); [done| |done|]. { apply stands_sign. set_solver. }
  apply (query_piece [] [] ($"x_2") _ ($"<=10 ""a q b""")); [done| |apply D; vm_compute; lia|].
  { apply stands_name; [|done]. constructor; [apply L; vm_compute; [lia|done]|by intros [|]|].
    constructor; [left; split; [by left|by intros [|]]|]. constructor; [right; vm_compute; lia|]. constructor. }
  apply (query_piece [] [] ($"<=") _ ($"10 ""a q b""")); [done| |done|]. { apply stands_sign. set_solver. }
  apply (query_piece [] [] ($"10") _ ($" ""a q b""")); [done| |vm_compute; lia|].
  { apply stands_number; [done|]. repeat (constructor; [vm_compute; lia|]). constructor. }
  apply (query_piece [] ($" ") ($"""a q b""") _ []); [by constructor| |done|by constructor].
  apply (stands_text ($"a q b")). apply (bool_decide_unpack _). by vm_compute.
Qed.

(** A query that ends with a number is not read, so that no query can end with its limit. *)
Theorem C82_number_at_end_refuted q l w : query w q l -> w <> [] -> Forall digit w ->
  answers (q ++ w) (Throw "OutOfBoundsException").
Proof.
  intros H Hn Hw fuel Hf. destruct (query_front w q l H fuel Hf) as (n & Hl & ->). destruct n as [|n]; [lia|].
  destruct w as [|d w]; [done|]. inversion Hw; subst. cbn [parse next_token]. rewrite digit_not_char, digit_digits by done.
  by rewrite get_digit_end.
Qed.
Print Assumptions C82_number_at_end_refuted.
Example C82_number_at_end_ex : parse 100 ($"SELECT * FROM t LIMIT 10") = Throw "OutOfBoundsException" /\
  is_Some (match parse 100 ($"SELECT * FROM t LIMIT 10 ") with Ok l => Some l | _ => None end).
Proof. split; [by vm_compute|]. vm_compute. eauto. Qed.
(** The letter q starts no name and ends one: it is an invalid token wherever a piece of the query starts. *)
Theorem C82_q_refuted q l c s : query (c :: s) q l -> is_q c -> answers (q ++ c :: s) (Throw "invalid token").
Proof.
  intros H Hq fuel Hf. destruct (query_front (c :: s) q l H fuel Hf) as (n & Hl & ->). destruct n as [|n]; [lia|].
  by destruct Hq as [-> | ->].
Qed.
Print Assumptions C82_q_refuted.
Example C82_q_ex : parse 100 ($"SELECT equal FROM t ") = Throw "invalid token".
Proof. by vm_compute. Qed.
(** A text that is not closed is an exception. *)
Theorem C82_open_text q l w : query (quote :: w) q l -> quote ∉ w -> answers (q ++ quote :: w) (Throw "OutOfBoundsException").
Proof.
  intros H Hw fuel Hf. destruct (query_front (quote :: w) q l H fuel Hf) as (n & Hl & ->). destruct n as [|n]; [lia|].
  cbn [parse next_token]. change (mem quote CHARS) with false. change (mem quote DIGITS) with false.
  change (mem quote WHITESPACES) with false. change (str_eqb [quote] [quote]) with true. cbv iota. by rewrite get_string_end.
Qed.
Print Assumptions C82_open_text.
Example C82_open_text_ex : parse 100 ($"SELECT ""a") = Throw "OutOfBoundsException".
Proof. by vm_compute. Qed.
