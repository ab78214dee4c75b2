(** Property C75: the text functions of the extensions (strcmp and its relatives, searching, case, characters, abs). *)
From Verif Require Import Base Text_Model Value_Model SysStr_Model SysStr_Spec SysStr_Proofs CStr_Model CStr_Spec CStr_Proofs.

(** ** Comparing *)
(** The sign of strcmp tells the order of what stands in front of the first zero byte of the two texts. *)
Theorem C75_strcmp s t p q : seen s p -> seen t q -> tells_order (ext_strcmp s t) p q.
Proof.
  intros Hp Hq. rewrite (seen_unique _ _ Hp), (seen_unique _ _ Hq). unfold ext_strcmp.
  rewrite wrap32_small by (pose proof (strcmp_range (c_str s) (c_str t)); lia). apply strcmp_tells; [apply c_str_seen..].
Qed.
Example C75_strcmp_ex : (ext_strcmp ($"abc") ($"abd") < 0)%Z /\ (0 < ext_strcmp ($"b") ($"abd"))%Z /\ ext_strcmp ($"x") ($"x") = 0%Z /\ seen ($"abc") ($"abc").
Proof. split_and!; [vm_compute; done..|]. split; [|by left]. apply (bool_decide_unpack (~ _)). vm_compute. exact I. Qed.
Print Assumptions C75_strcmp.
(** Every text has such a front, and only one. *)
Theorem C75_seen_exists s : exists p, seen s p /\ forall q, seen s q -> q = p.
Proof. exists (c_str s). split; [apply c_str_seen|apply seen_unique]. Qed.
Print Assumptions C75_seen_exists.
(** For texts without zero bytes strcmp is the order itself, so it can be used for sorting: it is total and transitive, and 0
    means equal. *)
Theorem C75_strcmp_order s t u : zero_byte ∉ s -> zero_byte ∉ t -> zero_byte ∉ u ->
  (ext_strcmp s t = 0%Z <-> s = t) /\
  ((ext_strcmp s t < 0)%Z <-> (0 < ext_strcmp t s)%Z) /\
  ((ext_strcmp s t <= 0)%Z -> (ext_strcmp t u <= 0)%Z -> (ext_strcmp s u <= 0)%Z).
Proof.
  intros Hs Ht Hu. assert (seen s s) as Ss by (split; [done|by left]). assert (seen t t) as St by (split; [done|by left]). assert (seen u u) as Su by (split; [done|by left]).
  destruct (C75_strcmp _ _ _ _ Ss St) as (A1 & A2 & A3), (C75_strcmp _ _ _ _ St Ss) as (B1 & B2 & B3), (C75_strcmp _ _ _ _ St Su) as (D1 & D2 & D3), (C75_strcmp _ _ _ _ Ss Su) as (E1 & E2 & E3).
  split_and!; [done|by rewrite A2, B3|]. intros H1 H2. destruct (decide (0 < ext_strcmp s u)%Z) as [H|]; [|lia]. exfalso. apply E3 in H.
  destruct (decide (ext_strcmp s t = 0%Z)) as [Z1|]; [apply A1 in Z1 as ->; apply D3 in H; lia|]. assert (before s t) as G1 by (apply A2; lia).
  assert (before u t) as G2 by (by eapply before_trans). apply D3 in G2. lia.
Qed.
Example C75_strcmp_order_ex : zero_byte ∉ $"abc" /\ (ext_strcmp ($"ab") ($"abc") <= 0)%Z /\ (ext_strcmp ($"abc") ($"b") <= 0)%Z.
Proof. split_and!; [apply (bool_decide_unpack (~ _)); vm_compute; exact I|vm_compute; done..]. Qed.
Print Assumptions C75_strcmp_order.
(** Texts with a zero byte (ascii(0) makes one) are taken for equal although they differ. *)
Theorem C75_strcmp_equal_refuted : exists s t, ext_strcmp s t = 0%Z /\ s <> t /\ s = $"a" ++ ext_ascii 0 ++ $"b".
Proof. exists ($"a" ++ ext_ascii 0 ++ $"b"), ($"a"). split_and!; [by vm_compute|done|done]. Qed.
Print Assumptions C75_strcmp_equal_refuted.
(** strncmp compares the first [n] characters; a negative number is no limit. *)
Theorem C75_strncmp s t p q n : seen s p -> seen t q -> (0 <= n < 2 ^ 31)%Z ->
  tells_order (ext_strncmp s t n) (take (Z.to_nat n) p) (take (Z.to_nat n) q).
Proof.
  intros Hp Hq Hn. rewrite (seen_unique _ _ Hp), (seen_unique _ _ Hq). unfold ext_strncmp.
  rewrite ulong_pos, strncmp_take by lia. rewrite wrap32_small by (pose proof (strcmp_range (take (Z.to_nat n) (c_str s)) (take (Z.to_nat n) (c_str t))); lia).
  apply strcmp_tells; intros H; apply elem_of_take in H as (i & H & _); apply elem_of_list_lookup_2 in H; by apply c_str_seen in H.
Qed.
Example C75_strncmp_ex : ext_strncmp ($"abc") ($"abd") 2 = 0%Z /\ (ext_strncmp ($"abc") ($"abd") 3 < 0)%Z /\ ext_strncmp ($"x") ($"y") 0 = 0%Z.
Proof. by vm_compute. Qed.
Print Assumptions C75_strncmp.
Theorem C75_strncmp_negative s t n : (- 2 ^ 31 <= n < 0)%Z -> short s -> short t -> ext_strncmp s t n = ext_strcmp s t.
Proof.
  intros Hn Hs Ht. unfold ext_strncmp, ext_strcmp. f_equal. unfold short in *. pose proof (ulong_neg n ltac:(lia)). pose proof (c_str_length s). pose proof (c_str_length t).
  rewrite strncmp_take by lia. by rewrite !take_all_c by lia.
Qed.
Example C75_strncmp_negative_ex : (ext_strncmp ($"abc") ($"abd") (-1) < 0)%Z.
Proof. by vm_compute. Qed.
Print Assumptions C75_strncmp_negative.

(** ** Searching *)
(** strspn (strcspn) answers the length of the longest front whose characters are all (not) among the given ones. *)
Theorem C75_spans s t p q n : seen s p -> seen t q -> short s ->
  (ext_strspn s t = n <-> longest_front (fun c => c ∈ q) p n) /\ (ext_strcspn s t = n <-> longest_front (fun c => c ∉ q) p n).
Proof.
  intros Hp Hq Hs. rewrite (seen_unique _ _ Hp), (seen_unique _ _ Hq). unfold ext_strspn, ext_strcspn, short in *. pose proof (c_str_length s).
  pose proof (span_bound true (c_str t) (c_str s)). pose proof (span_bound false (c_str t) (c_str s)). rewrite !wrap32_small by lia. split; split.
  - intros <-. apply (span_longest true).
  - intros H'. eapply longest_unique; [apply (span_longest true)|done].
  - intros <-. apply (span_longest false).
  - intros H'. eapply longest_unique; [apply (span_longest false)|done].
Qed.
Example C75_spans_ex : ext_strspn ($"aabxa") ($"ab") = 3%Z /\ ext_strcspn ($"aabxa") ($"xb") = 2%Z.
Proof. by vm_compute. Qed.
Print Assumptions C75_spans.
(** strchr, strrchr and strpbrk answer the rest of the text from the first (the last) wanted character on; if there is none
    the behaviour is undefined (a null pointer becomes a text). *)
Theorem C75_strchr s p ch c : seen s p -> (0 < ch < 256)%Z -> c = ascii_of_N (Z.to_N ch) ->
  (forall w, ext_strchr s ch = Ok w <-> from_first (fun d => d = c) p w) /\
  (forall w, ext_strrchr s ch = Ok w <-> from_last (fun d => d = c) p w) /\
  (c ∈ p <-> ext_strchr s ch <> UB) /\ (c ∈ p <-> ext_strrchr s ch <> UB).
Proof.
  intros Hp Hc Ec. rewrite (seen_unique _ _ Hp). unfold ext_strchr, ext_strrchr, to_char. rewrite Z.mod_small, <- Ec by lia.
  assert (c <> zero_byte) as Hz.
  { intros ->. apply (f_equal N_of_ascii) in Ec. rewrite N_ascii_embedding in Ec by lia. change (N_of_ascii zero_byte) with 0%N in Ec. lia. }
  split_and!.
  - intros w. rewrite <- strchr_iff by done. destruct (c_strchr (c_str s) c); cbn [from_pointer]; split; congruence.
  - intros w. rewrite <- strrchr_iff by done. destruct (c_strrchr (c_str s) c); cbn [from_pointer]; split; congruence.
  - pose proof (strchr_none c (c_str s) Hz) as H. destruct (c_strchr (c_str s) c) eqn:E; cbn [from_pointer].
    + split; [done|]. intros _. destruct (decide (c ∈ c_str s)) as [|n]; [done|]. by apply H in n.
    + split; [|done]. intros Hi. by destruct (proj1 H eq_refl).
  - pose proof (strrchr_none c (c_str s) Hz) as H. destruct (c_strrchr (c_str s) c) eqn:E; cbn [from_pointer].
    + split; [done|]. intros _. destruct (decide (c ∈ c_str s)) as [|n]; [done|]. by apply H in n.
    + split; [|done]. intros Hi. by destruct (proj1 H eq_refl).
Qed.
Example C75_strchr_ex : ext_strchr ($"a/b/c") 47 = Ok ($"/b/c") /\ ext_strrchr ($"a/b/c") 47 = Ok ($"/c") /\ ext_strchr ($"abc") 47 = UB.
Proof. by vm_compute. Qed.
Print Assumptions C75_strchr.
Theorem C75_strpbrk s t p q : seen s p -> seen t q ->
  (forall w, ext_strpbrk s t = Ok w <-> from_first (fun d => d ∈ q) p w) /\ (ext_strpbrk s t = UB <-> forall c, c ∈ p -> c ∉ q).
Proof.
  intros Hp Hq. rewrite (seen_unique _ _ Hp), (seen_unique _ _ Hq). unfold ext_strpbrk. split.
  - intros w. rewrite <- strpbrk_iff. destruct (c_strpbrk (c_str s) (c_str t)); cbn [from_pointer]; split; congruence.
  - rewrite <- strpbrk_none. by destruct (c_strpbrk (c_str s) (c_str t)).
Qed.
Example C75_strpbrk_ex : ext_strpbrk ($"key=value") ($":=") = Ok ($"=value") /\ ext_strpbrk ($"key") ($":=") = UB.
Proof. by vm_compute. Qed.
Print Assumptions C75_strpbrk.
(** strstr answers the rest from the first place of the second text on. *)
Theorem C75_strstr s t p q : seen s p -> seen t q ->
  (forall w, ext_strstr s t = Ok w <-> exists a, p = a ++ w /\ first_from p q 0 (Z.of_nat (length a))) /\
  (ext_strstr s t = UB <-> forall i, ~ occurs p q i).
Proof.
  intros Hp Hq. rewrite (seen_unique _ _ Hp), (seen_unique _ _ Hq). unfold ext_strstr. split.
  - intros w. rewrite <- strstr_iff. destruct (c_strstr (c_str s) (c_str t)); cbn [from_pointer]; split; congruence.
  - rewrite <- strstr_none. by destruct (c_strstr (c_str s) (c_str t)).
Qed.
Example C75_strstr_ex : ext_strstr ($"one two two") ($"two") = Ok ($"two two") /\ ext_strstr ($"one") ($"two") = UB.
Proof. by vm_compute. Qed.
Print Assumptions C75_strstr.
(** So looking for what is not there is no way to learn that it is not there. *)
Theorem C75_not_found_refuted : exists s, s <> [] /\ ext_strchr s 47 = UB /\ ext_strrchr s 47 = UB /\ ext_strpbrk s ($"/") = UB /\ ext_strstr s ($"/") = UB.
Proof. exists ($"abc"). split_and!; by vm_compute. Qed.
Print Assumptions C75_not_found_refuted.

(** ** Joining and picking *)
(** strncat(d, s, n) leaves out the first [n] characters of [s] instead of the others. *)
Theorem C75_strncat d s n : short s ->
  (forall a b, s = a ++ b -> Z.of_nat (length a) = n -> ext_strncat d s n = Ok (d ++ b)) /\
  ((- 2 ^ 31 <= n < 0 \/ Z.of_nat (length s) < n < 2 ^ 31)%Z -> exists e, ext_strncat d s n = Throw e).
Proof.
  intros Hs. unfold short in Hs. unfold ext_strncat. split.
  - intros a b -> <-. rewrite app_length in Hs. rewrite substr2_ok by (rewrite ?app_length; lia). cbn [rbind]. by rewrite Nat2Z.id, drop_app.
  - intros Hn. rewrite substr2_bad by lia. cbn [rbind]. by eexists.
Qed.
Example C75_strncat_ex : ext_strncat ($"a") ($"bcd") 1 = Ok ($"acd").
Proof. by vm_compute. Qed.
Print Assumptions C75_strncat.
Theorem C75_strncat_refuted : exists d s n, (0 <= n <= Z.of_nat (length s))%Z /\ ext_strncat d s n <> Ok (d ++ take (Z.to_nat n) s).
Proof. exists ($"a"), ($"bcd"), 1%Z. split; [by vm_compute|]. by vm_compute. Qed.
Print Assumptions C75_strncat_refuted.
(** strpos answers the character at a place, nothing at the end, and refuses every other place. *)
Theorem C75_strpos s i : short s -> (- 2 ^ 31 <= i < 2 ^ 31)%Z ->
  (forall a c b, s = a ++ c :: b -> Z.of_nat (length a) = i -> ext_strpos s i = Ok [c]) /\
  (i = Z.of_nat (length s) -> ext_strpos s i = Ok []) /\
  ((i < 0 \/ Z.of_nat (length s) < i)%Z -> ext_strpos s i = Throw "SizeException").
Proof.
  intros Hs Hi. unfold short in Hs. unfold ext_strpos. split_and!.
  - intros a c b -> <-. rewrite app_length in Hs. cbn [length] in Hs. rewrite ulong_pos by lia. rewrite (proj2 (Z.ltb_ge _ _)) by (rewrite app_length; lia).
    unfold cpp_substr. rewrite (proj2 (Z.ltb_ge _ _)) by (rewrite app_length; lia). rewrite Z.min_l by (rewrite app_length; cbn [length]; lia).
    rewrite Nat2Z.id, drop_app. done.
  - intros ->. rewrite ulong_pos by lia. rewrite (proj2 (Z.ltb_ge _ _)) by lia. unfold cpp_substr. rewrite (proj2 (Z.ltb_ge _ _)) by lia. rewrite Nat2Z.id, drop_all. by destruct (Z.to_nat _).
  - intros [Hn|Hn]; rewrite (proj2 (Z.ltb_lt _ _)); [done| |done|].
    + pose proof (ulong_neg i ltac:(lia)). lia.
    + rewrite ulong_pos; lia.
Qed.
Example C75_strpos_ex : ext_strpos ($"abc") 1 = Ok ($"b") /\ ext_strpos ($"abc") 3 = Ok [] /\ ext_strpos ($"abc") (-1) = Throw "SizeException".
Proof. by vm_compute. Qed.
Print Assumptions C75_strpos.

(** ** Case and characters *)
(** toLower and toUpper replace every letter by its counterpart and nothing else. *)
Theorem C75_case s : Forall2 lowered s (ext_to_lower s) /\ Forall2 raised s (ext_to_upper s).
Proof. split; induction s as [|c s IH]; constructor; [apply to_lower_spec|apply IH|apply to_upper_spec|apply IH]. Qed.
Example C75_case_ex : ext_to_lower ($"Slang 2.0 [Z]") = $"slang 2.0 [z]" /\ ext_to_upper ($"Slang 2.0 {z}") = $"SLANG 2.0 {Z}".
Proof. by vm_compute. Qed.
Print Assumptions C75_case.
(** Doing it twice changes nothing more, and the last of the two decides. *)
Theorem C75_case_twice s :
  ext_to_lower (ext_to_lower s) = ext_to_lower s /\ ext_to_upper (ext_to_upper s) = ext_to_upper s /\
  ext_to_upper (ext_to_lower s) = ext_to_upper s /\ ext_to_lower (ext_to_upper s) = ext_to_lower s.
Proof.
  unfold ext_to_lower, ext_to_upper. rewrite !map_map. split_and!; apply map_ext; intros c; apply ascii_eq.
  - pose proof (to_lower_spec c) as H1. pose proof (to_lower_spec (to_lower c)) as H2. unfold lowered, capital in *. destruct H1 as [H1|[H1 E1]], H2 as [H2|[H2 E2]]; try lia; rewrite ?E2, ?E1 in *; lia.
  - pose proof (to_upper_spec c) as H1. pose proof (to_upper_spec (to_upper c)) as H2. unfold raised, small in *. destruct H1 as [H1|[H1 E1]], H2 as [H2|[H2 E2]]; try lia; rewrite ?E2, ?E1 in *; lia.
  - pose proof (to_lower_spec c) as H1. pose proof (to_upper_spec (to_lower c)) as H2. pose proof (to_upper_spec c) as H3. unfold lowered, raised, capital, small in *.
    destruct H1 as [H1|[H1 E1]], H2 as [H2|[H2 E2]], H3 as [H3|[H3 E3]]; rewrite ?E2, ?E3, ?E1 in *; lia.
  - pose proof (to_upper_spec c) as H1. pose proof (to_lower_spec (to_upper c)) as H2. pose proof (to_lower_spec c) as H3. unfold lowered, raised, capital, small in *.
    destruct H1 as [H1|[H1 E1]], H2 as [H2|[H2 E2]], H3 as [H3|[H3 E3]]; rewrite ?E2, ?E3, ?E1 in *; lia.
Qed.
Print Assumptions C75_case_twice.
(** ascii(n) is the character with the code n, of numbers outside of 0..255 the lowest byte counts. *)
Theorem C75_ascii n : exists c, ext_ascii n = [c] /\ Z.of_N (N_of_ascii c) = (n mod 256)%Z.
Proof.
  exists (to_char n). split; [done|]. unfold to_char. pose proof (Z.mod_pos_bound n 256 ltac:(lia)). rewrite N_ascii_embedding by lia. lia.
Qed.
Example C75_ascii_ex : ext_ascii 65 = $"A" /\ ext_ascii (65 + 256) = $"A".
Proof. by vm_compute. Qed.
Print Assumptions C75_ascii.

(** ** Numbers *)
Theorem C75_abs z : (- 2 ^ 31 < z < 2 ^ 31)%Z -> ext_abs z = Z.abs z /\ ext_abs_math z = Ok (Z.abs z).
Proof. intros H. unfold ext_abs, ext_abs_math. rewrite !wrap32_small, checked32 by lia. done. Qed.
Example C75_abs_ex : ext_abs (-5) = 5%Z /\ ext_abs 7 = 7%Z.
Proof. by vm_compute. Qed.
Print Assumptions C75_abs.
(** The smallest number has no absolute value: one abs answers it unchanged, the other is undefined. *)
Theorem C75_abs_refuted : exists z, in_range 32 z = true /\ (ext_abs z < 0)%Z /\ ext_abs_math z = UB.
Proof. exists (- 2 ^ 31)%Z. by vm_compute. Qed.
Print Assumptions C75_abs_refuted.

(** strcat: the characters of the first text, then those of the second. *)
Theorem C75_strcat d s : take (length d) (ext_strcat d s) = d /\ drop (length d) (ext_strcat d s) = s.
Proof. split; [apply take_app|apply drop_app]. Qed.
Print Assumptions C75_strcat.
Example C75_strcat_ex : ext_strcat ($"ab") ($"c") = $"abc".
Proof. done. Qed.
