(** Properties of enumeration declarations: C40. *)
From Verif Require Import Base Base_Proofs Text_Model Tok_Model Tok_Proofs TypeTable TypeSys_Model Value_Model Enum_Model Enum_Spec Enum_Proofs.
From Coq Require Import Sorting.Sorted.

(** A declaration is accepted exactly when it spells entries, ended by a semicolon, with different names and increasing
    numbers, counting up where no number is written. The entries then have those names and numbers, in that order. *)
Theorem C40_accepted_iff toks out :
  build_enum toks = Ok out <->
  exists es pre semi rest, toks = pre ++ semi :: rest /\ spells es pre /\ k_type semi = SEMICOLON /\
    NoDup (map fst es) /\ increasing (-1) (numbers (-1) es) /\ countable (-1) es /\
    out = zip (map fst es) (numbers (-1) es).
Proof. apply build_enum_iff. Qed.
Print Assumptions C40_accepted_iff.
Definition tk (ty : ttype) (s : str) : token := Token CNone ty s 1 1 false.
Example C40_ex :
  build_enum [tk IDENTIFIER ($"A"); tk COMMA ($","); tk IDENTIFIER ($"B"); tk ASSIGN ($"="); tk CONST_INTEGER ($"7"); tk COMMA ($",");
              tk IDENTIFIER ($"C"); tk SEMICOLON ($";")] = Ok [($"A", 0%Z); ($"B", 7%Z); ($"C", 8%Z)] /\
  build_enum [tk IDENTIFIER ($"A"); tk ASSIGN ($"="); tk CONST_INTEGER ($"7"); tk COMMA ($",");
              tk IDENTIFIER ($"B"); tk ASSIGN ($"="); tk CONST_INTEGER ($"7"); tk SEMICOLON ($";")] = Throw "SyntaxError" /\
  build_enum [tk IDENTIFIER ($"A"); tk COMMA ($","); tk IDENTIFIER ($"A"); tk SEMICOLON ($";")] = Throw "DuplicateIdentifier".
Proof. by vm_compute. Qed.

(** In particular: at least one entry, names without repetition, numbers not negative and strictly increasing. *)
Theorem C40_increasing toks out :
  build_enum toks = Ok out ->
  out <> [] /\ NoDup (map fst out) /\ StronglySorted Z.lt (map snd out) /\ Forall (fun e => 0 <= snd e)%Z out.
Proof.
  intros H. apply build_enum_iff in H as (es & pre & semi & rest & -> & Hs & _ & Hn & Hi & _ & ->).
  assert (map snd (zip (map (@fst str (option str)) es) (numbers (-1) es)) = numbers (-1) es) as E by apply zip_snd, numbers_length.
  split_and!.
  - destruct Hs as [e ? ?|e ? ? ? ?]; destruct e; done.
  - assert (map fst (zip (map (@fst str (option str)) es) (numbers (-1) es)) = map fst es) as ->; [|done].
    apply fst_zip. rewrite map_length, <- numbers_length. done.
  - rewrite E. unfold increasing in Hi. by inversion Hi.
  - apply number_nonneg_lt in Hi. rewrite <- E in Hi. apply Forall_forall. intros e He.
    rewrite Forall_forall in Hi. assert (-1 < snd e)%Z; [|lia]. apply Hi. apply elem_of_list_fmap. eauto.
Qed.
Print Assumptions C40_increasing.
(** Different entries therefore have different numbers. *)
Corollary C40_distinct toks out i j a b :
  build_enum toks = Ok out -> out !! i = Some a -> out !! j = Some b -> snd a = snd b -> i = j.
Proof.
  intros H Ha Hb E. apply C40_increasing in H as (_ & _ & Hs & _).
  assert (Ha' : map snd out !! i = Some (snd a)) by (by rewrite list_lookup_fmap, Ha).
  assert (Hb' : map snd out !! j = Some (snd a)) by (by rewrite list_lookup_fmap, Hb, E).
  revert Ha' Hb'. generalize (snd a). clear Ha Hb E. revert i j. induction Hs as [|z zs Hs IH Hf]; intros i j v Hi Hj; [done|].
  rewrite Forall_forall in Hf.
  assert (forall k w, zs !! k = Some w -> (z < w)%Z) as Hk. { intros k w Hkw. apply Hf. by eapply elem_of_list_lookup_2. }
  destruct i as [|i], j as [|j]; cbn in Hi, Hj; [done|..].
  - injection Hi as ->. apply Hk in Hj. lia.
  - injection Hj as ->. apply Hk in Hi. lia.
  - f_equal. eauto.
Qed.
Print Assumptions C40_distinct.

(** What is written behind the first semicolon is not looked at. *)
Theorem C40_rest_ignored_refuted toks semi rest out :
  build_enum (toks ++ [semi]) = Ok out -> k_type semi = SEMICOLON ->
  (forall t, t ∈ toks -> k_type t <> SEMICOLON) ->
  build_enum (toks ++ semi :: rest) = Ok out.
Proof.
  intros H Hs Hn. apply build_enum_iff in H as (es & pre & semi' & rest' & E & Hsp & Hse & Hnd & Hi & Hc & ->).
  apply build_enum_iff. exists es, pre, semi, rest. split_and!; try done.
  destruct rest' as [|x rest' _] using rev_ind.
  - apply app_inj_tail in E as [-> _]. done.
  - rewrite app_comm_cons, app_assoc in E. apply app_inj_tail in E as [-> _]. exfalso.
    apply (Hn semi'); [|done]. apply elem_of_app. right. left.
Qed.
Print Assumptions C40_rest_ignored_refuted.
Example C40_rest_ignored_ex :
  build_enum [tk IDENTIFIER ($"A"); tk SEMICOLON ($";"); tk COMMA ($","); tk COMMA ($",")] = Ok [($"A", 0%Z)].
Proof. by vm_compute. Qed.
(** The semicolon is said to be optional, but without it the declaration is never accepted, and the end of the token
    list is read. *)
Theorem C40_no_semicolon_refuted es toks :
  spells es toks ->
  (build_enum toks = UB \/ exists x, build_enum toks = Throw x) /\
  (NoDup (map fst es) -> increasing (-1) (numbers (-1) es) -> countable (-1) es -> length es = 1%nat -> build_enum toks = UB).
Proof.
  intros H. split; [apply (enum_loop_end _ _ _ es); [done|lia]|]. intros _ Hi Hc Hl.
  destruct H as [e pre Hs|e es pre comma pre' Hs Hcm Hrec].
  - destruct Hs as [n Hn|n a v Hn Ha Hv]; unfold build_enum; cbn [enum_loop]; unfold enum_entry; cbn [expect].
    + by rewrite bool_decide_eq_true_2.
    + rewrite !bool_decide_eq_true_2 by done. cbn [rbind]. rewrite bool_decide_eq_true_2 by done. cbn [expect].
      rewrite bool_decide_eq_true_2 by done. cbn [rbind]. by case_match.
  - exfalso. destruct Hrec; cbn in Hl; lia.
Qed.
Print Assumptions C40_no_semicolon_refuted.
(** An empty declaration is undefined behaviour instead of an error. *)
Theorem C40_empty_refuted : build_enum [] = UB.
Proof. done. Qed.
Print Assumptions C40_empty_refuted.
(** A variable of an enumeration type can hold a number that no entry has: any int can be assigned. *)
Theorem C40_only_entries_refuted F t v z :
  kind_of t = KOther -> t <> t_anonymous -> t <> t_int ->
  assign_op F false (mk_enum t v) (mk t_int (AInt z)) = Ok (mk_enum t z).
Proof.
  intros K N1 N2. unfold assign_op. cbn [o_type mk_enum mk o_enum o_val to_int rbind o_atomic o_isref o_ref].
  unfold str_eqb. rewrite (bool_decide_eq_false_2 (t = t_anonymous)) by done. rewrite (bool_decide_eq_false_2 (t_int = t)) by done.
  cbn [orb]. rewrite K. rewrite bool_decide_eq_true_2 by done. done.
Qed.
Print Assumptions C40_only_entries_refuted.
Example C40_only_entries_ex : kind_of ($"Color") = KOther /\ $"Color" <> t_anonymous /\ $"Color" <> t_int.
Proof. by vm_compute. Qed.
