(** Proofs about enumeration declarations (C40). *)
From Verif Require Import Base Base_Proofs Text_Model Tok_Model Tok_Proofs Enum_Model Enum_Spec.
From Coq Require Import Sorting.Sorted.

Lemma succ64_iff z v : succ64 z = Ok v <-> z <> largest /\ v = (z + 1)%Z.
Proof.
  unfold succ64. change max64 with largest. destruct (Z.eqb_spec z largest); split; try done.
  - by intros [].
  - by intros [= <-].
  - by intros [_ ->].
Qed.
Lemma expect_iff ty toks t rest : expect ty toks = Ok (t, rest) <-> toks = t :: rest /\ k_type t = ty.
Proof.
  unfold expect. destruct toks as [|x toks]; [split; [done|by intros []]|]. case_bool_decide; split; try done.
  - intros [= <- <-]. done.
  - intros [[= <- <-] _]. done.
  - intros [[= <- <-] E]. done.
Qed.
Lemma enum_entry_iff value toks n v rest :
  enum_entry value toks = Ok (n, v, rest) <->
  exists e pre, toks = pre ++ rest /\ spells_entry e pre /\ n = fst e /\ v = number value e /\
    (snd e = None -> value <> largest /\ match rest with [] => False | t :: _ => k_type t <> ASSIGN end).
Proof.
  unfold enum_entry. split.
  - destruct (expect IDENTIFIER toks) as [[t toks1]| | |] eqn:E; cbn [rbind]; try done. apply expect_iff in E as [-> Ht].
    destruct toks1 as [|t1 toks2]; [done|]. case_bool_decide as Ha.
    + destruct (expect CONST_INTEGER toks2) as [[t2 toks3]| | |] eqn:E; cbn [rbind]; try done. apply expect_iff in E as [-> Ht2].
      intros [= <- <- <-]. exists (k_text t, Some (k_text t2)), [t; t1; t2]. split_and!; try done. by constructor.
    + destruct (succ64 value) as [w| | |] eqn:E; cbn [rbind]; try done. apply succ64_iff in E as [Hn ->].
      intros [= <- <- <-]. exists (k_text t, None), [t]. split_and!; try done. by constructor.
  - intros (e & pre & -> & Hs & -> & -> & Hn). inversion Hs as [t Ht|t a d Ht Ha Hd]; subst.
    + cbn [app snd] in *. destruct (Hn eq_refl) as [Hl Hr]. cbn [expect rbind]. rewrite bool_decide_eq_true_2 by done. cbn [rbind].
      destruct rest as [|x rest]; [done|]. rewrite bool_decide_eq_false_2 by done.
      rewrite (proj2 (succ64_iff value _) (conj Hl eq_refl)). done.
    + cbn [app expect]. rewrite bool_decide_eq_true_2 by done. cbn [rbind]. rewrite bool_decide_eq_true_2 by done.
      cbn [expect]. rewrite bool_decide_eq_true_2 by done. done.
Qed.

Lemma existsb_name (acc : list (str * Z)) n : existsb (fun x => str_eqb (fst x) n) acc = true <-> n ∈ map fst acc.
Proof.
  rewrite existsb_exists, elem_of_list_fmap. split.
  - intros (x & Hx & E). apply bool_decide_eq_true in E. exists x. split; [done|]. by apply elem_of_list_In.
  - intros (x & -> & Hx). exists x. split; [by apply elem_of_list_In|by apply bool_decide_eq_true].
Qed.
Lemma spells_entry_len e pre : spells_entry e pre -> (1 <= length pre)%nat.
Proof. intros []; cbn; lia. Qed.
Lemma numbers_length es : forall b, length es = length (numbers b es).
Proof. induction es as [|e es IH]; intros b; cbn; [done|]. f_equal. apply IH. Qed.

Lemma enum_loop_sound fuel : forall value acc toks out, enum_loop fuel value acc toks = Ok out ->
  exists es pre semi rest, toks = pre ++ semi :: rest /\ spells es pre /\ k_type semi = SEMICOLON /\
    out = reverse acc ++ zip (map fst es) (numbers value es) /\
    increasing value (numbers value es) /\ countable value es /\
    (NoDup (map fst acc) -> NoDup (map fst (reverse acc) ++ map fst es)).
Proof.
  induction fuel as [|fuel IH]; intros value acc toks out H; [done|]. cbn [enum_loop] in H.
  destruct toks as [|t0 toks0]; [done|]. remember (t0 :: toks0) as toks eqn:Et. clear t0 toks0 Et.
  destruct (enum_entry value toks) as [[[n v] rest]| | |] eqn:E; try done. cbn [rbind] in H.
  apply enum_entry_iff in E as (e & pre & -> & Hs & -> & Ev & Hc).
  destruct (v <=? value)%Z eqn:Hv; [by destruct rest|]. apply Z.leb_gt in Hv.
  destruct (existsb _ acc) eqn:Hx; [done|]. assert (fst e ∉ map fst acc) as Hx'.
  { intros C. apply existsb_name in C. congruence. } clear Hx.
  destruct rest as [|t rest]; [done|]. case_bool_decide as Hcm.
  - destruct rest as [|t1 rest1]; [done|]. apply IH in H as (es & pre1 & semi & rest & Eq & Hsp & Hse & -> & Hi & Hct & Hnd).
    exists (e :: es), (pre ++ t :: pre1), semi, rest. split_and!.
    + rewrite Eq, <- app_assoc. done.
    + by constructor.
    + done.
    + rewrite reverse_cons, <- app_assoc. cbn [numbers map zip zip_with]. by rewrite Ev.
    + unfold increasing in *. cbn [numbers]. rewrite <- Ev. constructor; [done|].
      constructor; [done|]. inversion Hi as [|? ? ? Hf]; subst. eapply Forall_impl; [exact Hf|]. cbn. intros z Hz. lia.
    + cbn [countable]. rewrite <- Ev. split; [|done]. intros En. by destruct (Hc En).
    + intros Ha. cbn [map] in Hnd |- *. rewrite reverse_cons, map_app in Hnd. cbn [map fst] in Hnd.
      rewrite <- app_assoc in Hnd. apply Hnd. by constructor.
  - case_bool_decide as Hse; [|done]. injection H as <-. exists [e], pre, t, rest. split_and!; try done.
    + by constructor.
    + rewrite reverse_cons. cbn. by rewrite Ev.
    + unfold increasing. cbn [numbers]. rewrite <- Ev. repeat constructor. done.
    + split; [|done]. intros En. by destruct (Hc En).
    + intros Ha. cbn [map]. rewrite NoDup_app. split_and!.
      * rewrite map_reverse. by rewrite reverse_Permutation.
      * rewrite map_reverse. intros x Hin ->%elem_of_list_singleton. by rewrite elem_of_reverse in Hin.
      * apply NoDup_singleton.
Qed.
Lemma spells_head es pre : spells es pre -> exists t pre', pre = t :: pre' /\ k_type t = IDENTIFIER.
Proof. intros H. destruct H as [e toks H|e es toks c toks' H]; destruct H; cbn; eauto. Qed.
Lemma enum_loop_complete fuel : forall value acc es pre semi rest,
  spells es pre -> k_type semi = SEMICOLON -> increasing value (numbers value es) -> countable value es ->
  NoDup (map fst (reverse acc) ++ map fst es) -> (length pre < fuel)%nat ->
  enum_loop fuel value acc (pre ++ semi :: rest) = Ok (reverse acc ++ zip (map fst es) (numbers value es)).
Proof.
  induction fuel as [|fuel IH]; intros value acc es pre semi rest Hs Hse Hi Hct Hnd Hl; [lia|].
  assert (forall e, fst e ∈ map fst es -> existsb (fun x : str * Z => str_eqb (fst x) (@fst str (option str) e)) acc = false) as Hex.
  { intros e Hin. apply not_true_is_false. rewrite existsb_name. intros Hin'. apply NoDup_app in Hnd as (_ & Hd & _).
    apply (Hd (fst e)); [|done]. rewrite map_reverse. by apply elem_of_reverse. }
  destruct Hs as [e pre Hs|e es pre comma pre' Hs Hcm Hrec].
  - cbn [enum_loop]. destruct (pre ++ semi :: rest) as [|x xs] eqn:Ex; [by destruct pre|]. rewrite <- Ex. clear x xs Ex.
    assert (enum_entry value (pre ++ semi :: rest) = Ok (fst e, number value e, semi :: rest)) as ->.
    { apply enum_entry_iff. exists e, pre. split_and!; try done. intros En. destruct Hct as [Hct _]. split; [by apply Hct|]. by rewrite Hse. }
    cbn [rbind]. unfold increasing in Hi. cbn [numbers] in Hi. inversion Hi as [|? ? _ Hf]; subst.
    inversion Hf as [|? ? Hlt _]; subst.
    replace (number value e <=? value)%Z with false by (symmetry; apply Z.leb_gt; lia).
    rewrite Hex by left. rewrite bool_decide_eq_false_2 by (by rewrite Hse). rewrite bool_decide_eq_true_2 by done.
    by rewrite reverse_cons.
  - rewrite <- app_assoc. cbn [app enum_loop].
    destruct (pre ++ comma :: pre' ++ semi :: rest) as [|x xs] eqn:Ex; [by destruct pre|]. rewrite <- Ex. clear x xs Ex.
    assert (enum_entry value (pre ++ comma :: pre' ++ semi :: rest) = Ok (fst e, number value e, comma :: pre' ++ semi :: rest)) as ->.
    { apply enum_entry_iff. exists e, pre. split_and!; try done. intros En. destruct Hct as [Hct _]. split; [by apply Hct|]. by rewrite Hcm. }
    cbn [rbind]. unfold increasing in Hi. cbn [numbers] in Hi. inversion Hi as [|? ? Hi' Hf]; subst.
    inversion Hf as [|? ? Hlt _]; subst.
    replace (number value e <=? value)%Z with false by (symmetry; apply Z.leb_gt; lia).
    rewrite Hex by left. rewrite bool_decide_eq_true_2 by done.
    destruct (spells_head _ _ Hrec) as (t & pre'' & -> & _). cbn [app]. rewrite app_comm_cons.
    rewrite (IH _ _ es); [|done|done|done|by destruct Hct| |].
    + rewrite reverse_cons, <- app_assoc. done.
    + rewrite reverse_cons, map_app, <- app_assoc. done.
    + rewrite app_length in Hl. cbn [length] in *. lia.
Qed.

Lemma number_nonneg_lt es : forall b, increasing b (numbers b es) -> Forall (fun z => b < z)%Z (numbers b es).
Proof. intros b H. by inversion H. Qed.
Lemma zip_snd (es : list entry) (zs : list Z) : length es = length zs -> map snd (zip (map (@fst str (option str)) es) zs) = zs.
Proof. revert zs. induction es as [|e es IH]; intros [|z zs] H; try done. cbn. f_equal. apply IH. cbn in H. lia. Qed.

Lemma build_enum_iff toks out :
  build_enum toks = Ok out <->
  exists es pre semi rest, toks = pre ++ semi :: rest /\ spells es pre /\ k_type semi = SEMICOLON /\
    NoDup (map fst es) /\ increasing (-1) (numbers (-1) es) /\ countable (-1) es /\
    out = zip (map fst es) (numbers (-1) es).
Proof.
  unfold build_enum. split.
  - intros H. apply enum_loop_sound in H as (es & pre & semi & rest & -> & Hs & Hse & -> & Hi & Hc & Hn).
    exists es, pre, semi, rest. split_and!; try done. apply Hn. constructor.
  - intros (es & pre & semi & rest & -> & Hs & Hse & Hn & Hi & Hc & ->).
    rewrite (enum_loop_complete _ _ _ es); try done. rewrite app_length. cbn. lia.
Qed.

(** Without a semicolon the end of the list is read. *)
Lemma enum_loop_end fuel : forall value acc es pre,
  spells es pre -> (length pre < fuel)%nat ->
  enum_loop fuel value acc pre = UB \/ exists x, enum_loop fuel value acc pre = Throw x.
Proof.
  induction fuel as [|fuel IH]; intros value acc es pre Hs Hl; [lia|].
  destruct Hs as [e pre Hs|e es pre comma pre' Hs Hcm Hrec].
  - destruct Hs as [n Hn|n a v Hn Ha Hv]; cbn [enum_loop]; unfold enum_entry; cbn [expect].
    + rewrite bool_decide_eq_true_2 by done. cbn [rbind]. by left.
    + rewrite !bool_decide_eq_true_2 by done. cbn [rbind]. rewrite !bool_decide_eq_true_2 by done. cbn [expect rbind]. rewrite !bool_decide_eq_true_2 by done. cbn [rbind].
      repeat case_match; first [by left|right; by eexists].
  - cbn [enum_loop]. destruct (pre ++ comma :: pre') as [|x xs] eqn:Ex; [by destruct pre|]. rewrite <- Ex in Hl |- *. clear x xs Ex.
    destruct (enum_entry value (pre ++ comma :: pre')) as [[[n v] rest]|x| |] eqn:E; cbn [rbind]; [|right; by eexists|by left|].
    + assert (rest = comma :: pre') as ->.
      { destruct Hs as [m Hm|m a w Hm Ha Hw]; unfold enum_entry in E; cbn [app expect] in E; rewrite bool_decide_eq_true_2 in E by done; cbn [rbind] in E.
        - rewrite bool_decide_eq_false_2 in E by (by rewrite Hcm). destruct (succ64 value); cbn [rbind] in E; try done; by injection E as _ _ <-.
        - rewrite !bool_decide_eq_true_2 in E by done. cbn [expect rbind] in E. rewrite !bool_decide_eq_true_2 in E by done. cbn [rbind] in E. by injection E as _ _ <-. }
      destruct (v <=? value)%Z; [right; by eexists|]. destruct (existsb _ _); [right; by eexists|].
      rewrite bool_decide_eq_true_2 by done. destruct (spells_head _ _ Hrec) as (t & pre'' & -> & _).
      eapply IH; [exact Hrec|]. rewrite app_length in Hl. cbn [length] in *. lia.
    + exfalso. unfold enum_entry, expect, succ64 in E. repeat (case_match; cbn [rbind] in E; try discriminate).
Qed.
