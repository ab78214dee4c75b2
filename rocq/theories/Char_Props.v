(** C80: characters; C81: keys of the loggers of System.IO. *)
From Verif Require Import Base Value_Model SysStr_Model SysStr_Proofs Char_Model.

(** What a Character made from a text holds: its first character, or nothing. *)
Definition first_of (s : str) : str := match s with [] => [] | a :: _ => [a] end.

Lemma substr_first s : substr3 s 0 1 = Ok (first_of s).
Proof.
  unfold substr3, cpp_substr, ulong. change (0 mod 2 ^ 64)%Z with 0%Z. change (1 mod 2 ^ 64)%Z with 1%Z.
  destruct (Z.ltb_spec (Z.of_nat (length s)) 0); [lia|]. f_equal. destruct s as [|a s]; [done|].
  cbn [length]. rewrite Z.min_l by lia. done.
Qed.
(** A Character made without a check, assigned or copied holds the first character of the text. *)
Theorem C80_first value c :
  char_new value false = Ok (first_of value) /\ char_assign c value = Ok (first_of value) /\
  char_copy (first_of value) = Ok (first_of value).
Proof.
  unfold char_new, char_assign, char_copy, char_new. cbn [andb]. rewrite !substr_first. repeat split. by destruct value.
Qed.
Print Assumptions C80_first.
Example C80_first_ex : char_new ($"abc") false = Ok ($"a") /\ char_new [] false = Ok [].
Proof. by vm_compute. Qed.

(** With the check it is made from texts of one character only; everything else is an exception. *)
Theorem C80_checked value : (Z.of_nat (length value) < 2 ^ 31)%Z ->
  (forall c, char_new value true = Ok c <-> exists a, value = [a] /\ c = [a]) /\
  (length value <> 1%nat -> char_new value true = Throw "InvalidLengthException").
Proof.
  intros H. unfold char_new. rewrite str_len_short, substr_first by done. cbn [andb].
  destruct (Z.eqb_spec (Z.of_nat (length value)) 1) as [E|E]; cbn [negb].
  - destruct value as [|a [|b v]]; cbn [length] in E; [lia| |lia]. split; [|done]. intros c. cbn. split.
    + intros [= <-]. by exists a.
    + by intros (b & [= <-] & ->).
  - split; [|done]. intros c. split; [done|]. intros (a & -> & _). by destruct E.
Qed.
Print Assumptions C80_checked.
Example C80_checked_ex : char_new ($"a") true = Ok ($"a") /\ char_new ($"ab") true = Throw "InvalidLengthException".
Proof. by vm_compute. Qed.

(** Two characters are equal if they are the same, and ordered by their codes; an empty one is before every other and the only
    one that counts as false. *)
Theorem C80_compare s t :
  (char_eq (first_of s) (first_of t) = true <-> first_of s = first_of t) /\
  (char_lt (first_of s) (first_of t) = true <->
     match s, t with
     | [], [] => False
     | [], _ :: _ => True
     | _ :: _, [] => False
     | a :: _, b :: _ => (nat_of_ascii a < nat_of_ascii b)%nat
     end) /\
  (char_not (first_of s) = true <-> s = []).
Proof.
  split; [|split].
  - unfold char_eq, str_eqb. apply bool_decide_eq_true.
  - unfold char_lt. destruct s as [|a s], t as [|b t]; cbn; [done|done|done|].
    repeat case_match; repeat match goal with
      | H : (_ <? _)%nat = true |- _ => apply Nat.ltb_lt in H | H : (_ <? _)%nat = false |- _ => apply Nat.ltb_ge in H
      | H : (_ <? _)%N = true |- _ => apply N.ltb_lt in H | H : (_ <? _)%N = false |- _ => apply N.ltb_ge in H end;
      unfold nat_of_ascii in *; split; intros; try done; lia.
  - by destruct s.
Qed.
Print Assumptions C80_compare.
Example C80_compare_ex : char_lt ($"a") ($"b") = true /\ char_eq ($"a") ($"b") = false /\ char_not [] = true.
Proof. by vm_compute. Qed.

(** Compared with a text only the first character of the text counts. *)
Theorem C80_with_text c s :
  char_eq_text c s = Ok (char_eq c (first_of s)) /\ char_lt_text c s = Ok (char_lt c (first_of s)).
Proof. unfold char_eq_text, char_lt_text. by rewrite !substr_first. Qed.
Print Assumptions C80_with_text.
(** So a character equals texts that are longer than it. *)
Theorem C80_longer_text_refuted : ~ forall c s, char_eq_text c s = Ok true -> s = c.
Proof. intros H. specialize (H ($"a") ($"abc") eq_refl). discriminate. Qed.
Print Assumptions C80_longer_text_refuted.

(** The key of a logger of System.IO is the end of the name that it was given, of the length that was asked for. *)
Theorem C81_key_partial front back :
  back <> [] -> (Z.of_nat (length (front ++ back)) < 2 ^ 31)%Z ->
  io_key (front ++ back) (Z.of_nat (length back)) = Ok back.
Proof.
  intros Hb H. rewrite app_length in H. assert (length back <> 0%nat) by (by destruct back).
  unfold io_key. destruct (Z.eqb_spec (Z.of_nat (length back)) 0); [lia|].
  rewrite str_len_short by (rewrite app_length; lia). rewrite app_length, checked32 by lia. cbn [rbind].
  unfold substr3, cpp_substr, ulong. rewrite !Z.mod_small by lia.
  destruct (Z.ltb_spec (Z.of_nat (length (front ++ back))) (Z.of_nat (length front + length back) - Z.of_nat (length back))) as [L|L];
    rewrite app_length in L; [lia|].
  f_equal. rewrite app_length, Z.min_l by lia.
  replace (Z.to_nat (Z.of_nat (length front + length back) - Z.of_nat (length back))) with (length front) by lia.
  rewrite drop_app, Nat2Z.id. apply firstn_all.
Qed.
Print Assumptions C81_key_partial.
Example C81_key_partial_ex : io_key ($"database") 4 = Ok ($"base").
Proof. by vm_compute. Qed.
Theorem C81_key_free key : io_key key 0 = Ok key.
Proof. done. Qed.
Print Assumptions C81_key_free.
(** A name that is shorter than the length makes the constructor throw, while the logger of libLog fills it up. *)
Theorem C81_short_key_refuted key len : (Z.of_nat (length key) < len < 2 ^ 31)%Z -> io_key key len = Throw "out_of_range".
Proof.
  intros H. unfold io_key. destruct (Z.eqb_spec len 0); [lia|]. rewrite str_len_short, checked32 by lia. cbn [rbind].
  unfold substr3, cpp_substr. unfold ulong at 1.
  replace ((Z.of_nat (length key) - len) mod 2 ^ 64)%Z with (Z.of_nat (length key) - len + 2 ^ 64)%Z.
  - destruct (Z.ltb_spec (Z.of_nat (length key)) (Z.of_nat (length key) - len + 2 ^ 64)); [done|lia].
  - rewrite <- (Z.mod_add _ 1) by lia. rewrite Z.mod_small; lia.
Qed.
Print Assumptions C81_short_key_refuted.
Example C81_short_key_refuted_ex : io_key ($"db") 4 = Throw "out_of_range".
Proof. by vm_compute. Qed.
