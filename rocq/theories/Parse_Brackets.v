(** Proofs about brackets and blocks. *)
From Verif Require Import Base Base_Proofs Tok_Model Parse_Model Parse_Spec.

Lemma ttype_eqb_spec a b : ttype_eqb a b = true <-> a = b.
Proof.
  unfold ttype_eqb. rewrite N.eqb_eq. split; [|congruence]. intros H.
  assert (E : of_tnum (tnum a) = of_tnum (tnum b)) by congruence.
  assert (I : forall t, of_tnum (tnum t) = t) by (intros []; reflexivity).
  rewrite !I in E. exact E.
Qed.
Lemma ttype_eqb_refl a : ttype_eqb a a = true.
Proof. apply ttype_eqb_spec; reflexivity. Qed.
Lemma ttype_eqb_neq a b : ttype_eqb a b = false <-> a <> b.
Proof. rewrite <- not_true_iff_false, ttype_eqb_spec. reflexivity. Qed.
#[global] Instance ttype_eq_dec : EqDecision ttype.
Proof.
  intros a b. destruct (ttype_eqb a b) eqn:E.
  - left. apply ttype_eqb_spec. exact E.
  - right. apply ttype_eqb_neq. exact E.
Defined.
Lemma ty_in_spec ty l : ty_in ty l = true <-> ty ∈ l.
Proof.
  unfold ty_in. rewrite existsb_exists. split.
  - intros (y & Hy & E). apply ttype_eqb_spec in E. subst. apply elem_of_list_In. exact Hy.
  - intros H. exists ty. split; [apply elem_of_list_In; exact H|apply ttype_eqb_refl].
Qed.

Section Kind.
Context (op cl : ttype) (Hoc : op <> cl).
Notation nested := (nested op cl).

Lemma nested_app a b : nested a -> nested b -> nested (a ++ b).
Proof.
  intros Ha Hb. induction Ha as [|t l H1 H2 H IH|o a c l H1 H2 Ha IHa Hl IHl]; [exact Hb| |].
  - apply nested_other; assumption.
  - cbn. rewrite <- app_assoc. cbn. apply nested_pair; assumption.
Qed.

Inductive deep : nat -> list token -> Prop :=
| deep_0 b : nested b -> deep 0 b
| deep_S n b c l : nested b -> k_type c = cl -> deep n l -> deep (S n) (b ++ c :: l).

Lemma deep_other n t b : k_type t <> op -> k_type t <> cl -> deep n b -> deep n (t :: b).
Proof.
  intros H1 H2 [b' Hb|m b' c l Hb Hc Hl].
  - constructor. apply nested_other; assumption.
  - change (t :: b' ++ c :: l) with ((t :: b') ++ c :: l). constructor; auto. apply nested_other; assumption.
Qed.
Lemma deep_open n o b : k_type o = op -> deep (S n) b -> deep n (o :: b).
Proof.
  intros Ho H. inversion H as [|m b' c l Hb Hc Hl]; subst.
  inversion Hl as [l' Hl'|m' l0 c' l' Hl0 Hc' Hl']; subst.
  - constructor. apply nested_pair; auto.
  - replace (o :: b' ++ c :: l0 ++ c' :: l') with ((o :: b' ++ c :: l0) ++ c' :: l')
      by (cbn; rewrite <- app_assoc; reflexivity).
    constructor; auto. apply nested_pair; auto.
Qed.
Lemma deep_close n c b : k_type c = cl -> deep n b -> deep (S n) (c :: b).
Proof. intros Hc H. change (c :: b) with ([] ++ c :: b). constructor; auto. constructor. Qed.
End Kind.

Ltac teq := repeat match goal with
  | H : k_type ?t = _ |- context [k_type ?t] => rewrite H
  | |- context [ttype_eqb ?a ?a] => rewrite (ttype_eqb_refl a)
  | H : ?a <> ?b |- context [ttype_eqb ?a ?b] => rewrite (proj2 (ttype_eqb_neq a b) H)
  | H : ?b <> ?a |- context [ttype_eqb ?a ?b] => rewrite (proj2 (ttype_eqb_neq a b) (not_eq_sym H))
  end.

Section Find.
Context (op cl term : ttype) (Hoc : op <> cl).
Notation find := (find_balanced op cl term).

Lemma find_skip start b : nested op cl b -> Forall (fun t => k_type t <> term) b ->
  forall n r, (0 <= n)%Z -> find start n (b ++ r) = find start n r.
Proof.
  intros Hb. induction Hb as [|t l H1 H2 H IH|o a c l H1 H2 Ha IHa Hl IHl]; intros Hf n r Hn; [reflexivity| |].
  - inversion Hf; subst. cbn. teq. cbn. apply IH; auto.
  - inversion Hf as [|? ? Ho Hr]; subst. apply Forall_app in Hr as [Hfa Hfc].
    inversion Hfc as [|? ? Hc Hfl]; subst.
    cbn [app find_balanced]. teq. cbn.
    rewrite <- app_assoc. rewrite IHa by (auto; lia). cbn [app find_balanced]. teq.
    replace (n + 1 =? 0)%Z with false by (symmetry; apply Z.eqb_neq; lia). cbn.
    replace (n + 1 - 1)%Z with n by lia. apply IHl; auto.
Qed.

Lemma find_match start b c r : nested op cl b -> Forall (fun t => k_type t <> term) b -> k_type c = cl ->
  find start 0 (b ++ c :: r) = Ok (c :: r).
Proof. intros. rewrite find_skip by (auto; lia). cbn. teq. cbn. reflexivity. Qed.

Lemma find_inv start ts : forall n s, (0 <= n)%Z -> find start n ts = Ok s ->
  (exists b c r, ts = b ++ c :: r /\ s = c :: r /\ k_type c = cl /\ deep op cl (Z.to_nat n) b /\
     Forall (fun t => k_type t <> term) b) \/
  (s = start /\ exists t, t ∈ ts /\ k_type t = term).
Proof.
  induction ts as [|t ts IH]; intros n s Hn H; [discriminate|].
  cbn [find_balanced] in H.
  destruct (negb (ttype_eqb (k_type t) cl) || negb (n =? 0)%Z) eqn:E.
  2: { left. apply orb_false_iff in E as [E1 E2]. apply negb_false_iff in E1, E2.
       apply ttype_eqb_spec in E1. apply Z.eqb_eq in E2. subst n.
       exists [], t, ts. injection H as <-. repeat split; auto. cbn. constructor. constructor. }
  destruct (ttype_eqb (k_type t) term) eqn:Et.
  { right. injection H as <-. split; auto. exists t. split; [left|apply ttype_eqb_spec; exact Et]. }
  apply ttype_eqb_neq in Et.
  destruct (ttype_eqb (k_type t) op) eqn:E1.
  { apply ttype_eqb_spec in E1. assert (E2 : ttype_eqb (k_type t) cl = false) by (apply ttype_eqb_neq; congruence).
    rewrite E2 in H. apply IH in H; [|lia].
    destruct H as [(b & c & r & -> & -> & Hc & Hd & Hf)|[-> (u & Hu & Hu')]].
    - left. exists (t :: b), c, r. repeat split; auto. apply deep_open; auto.
      replace (S (Z.to_nat n)) with (Z.to_nat (n + 1)) by lia. exact Hd.
    - right. split; auto. exists u. split; auto. right; exact Hu. }
  destruct (ttype_eqb (k_type t) cl) eqn:E2.
  { cbn in E. apply negb_true_iff, Z.eqb_neq in E. apply ttype_eqb_spec in E2.
    apply IH in H; [|lia].
    destruct H as [(b & c & r & -> & -> & Hc & Hd & Hf)|[-> (u & Hu & Hu')]].
    - left. exists (t :: b), c, r. repeat split; auto.
      replace (Z.to_nat n) with (S (Z.to_nat (n - 1))) by lia. apply deep_close; auto.
    - right. split; auto. exists u. split; auto. right; exact Hu. }
  apply ttype_eqb_neq in E1, E2. apply IH in H; [|lia].
  destruct H as [(b & c & r & -> & -> & Hc & Hd & Hf)|[-> (u & Hu & Hu')]].
  - left. exists (t :: b), c, r. repeat split; auto. apply deep_other; auto.
  - right. split; auto. exists u. split; auto. right; exact Hu.
Qed.
End Find.

(** Curly brackets. *)
Notation nestedc := (nested BRACKET_CURLY_OPEN BRACKET_CURLY_CLOSE).

Lemma curly_skip b : nestedc b -> forall n r, (1 <= n)%Z ->
  find_curly BRACKET_CURLY_CLOSE n (b ++ r) = find_curly BRACKET_CURLY_CLOSE n r.
Proof.
  intros Hb. induction Hb as [|t l H1 H2 H IH|o a c l H1 H2 Ha IHa Hl IHl]; intros n r Hn; [reflexivity| |].
  - cbn. teq. cbn. rewrite andb_false_r. apply IH; lia.
  - cbn [app find_curly]. teq. cbn. rewrite andb_false_r.
    rewrite <- app_assoc. rewrite IHa by lia. cbn [app find_curly]. teq.
    replace (n + 1 =? 0)%Z with false by (symmetry; apply Z.eqb_neq; lia). cbn.
    replace (n + 1 - 1)%Z with n by lia.
    replace (n =? 0)%Z with false by (symmetry; apply Z.eqb_neq; lia). cbn. apply IHl; lia.
Qed.

Lemma curly_inv ts : forall n s, (1 <= n)%Z -> find_curly BRACKET_CURLY_CLOSE n ts = Ok s ->
  exists b c r, ts = b ++ c :: r /\ s = c :: r /\ k_type c = BRACKET_CURLY_CLOSE /\
    deep BRACKET_CURLY_OPEN BRACKET_CURLY_CLOSE (Z.to_nat (n - 1)) b.
Proof.
  assert (Hoc : BRACKET_CURLY_OPEN <> BRACKET_CURLY_CLOSE) by discriminate.
  induction ts as [|t ts IH]; intros n s Hn H.
  - cbn in H. replace (n =? 0)%Z with false in H by (symmetry; apply Z.eqb_neq; lia). discriminate.
  - cbn [find_curly] in H.
    replace (n =? 0)%Z with false in H by (symmetry; apply Z.eqb_neq; lia). rewrite orb_true_r in H.
    destruct (ttype_eqb (k_type t) BRACKET_CURLY_CLOSE) eqn:E2.
    + apply ttype_eqb_spec in E2. rewrite E2 in H. cbn in H. rewrite andb_true_r in H.
      destruct (n - 1 =? 0)%Z eqn:E.
      * injection H as <-. apply Z.eqb_eq in E. exists [], t, ts. repeat split; auto.
        rewrite E. constructor. constructor.
      * apply Z.eqb_neq in E. apply IH in H; [|lia]. destruct H as (b & c & r & -> & -> & Hc & Hd).
        exists (t :: b), c, r. repeat split; auto.
        replace (Z.to_nat (n - 1)) with (S (Z.to_nat (n - 1 - 1))) by lia. apply deep_close; auto.
    + rewrite andb_false_r in H. destruct (ttype_eqb (k_type t) BRACKET_CURLY_OPEN) eqn:E1.
      * apply ttype_eqb_spec in E1. apply IH in H; [|lia]. destruct H as (b & c & r & -> & -> & Hc & Hd).
        exists (t :: b), c, r. repeat split; auto. apply deep_open; auto.
        replace (S (Z.to_nat (n - 1))) with (Z.to_nat (n + 1 - 1)) by lia. exact Hd.
      * apply ttype_eqb_neq in E1, E2. apply IH in H; [|lia]. destruct H as (b & c & r & -> & -> & Hc & Hd).
        exists (t :: b), c, r. repeat split; auto. apply deep_other; auto.
Qed.

Lemma find_curly_iff o ts s : k_type o = BRACKET_CURLY_OPEN ->
  (find_curly BRACKET_CURLY_CLOSE 0 (o :: ts) = Ok s <->
   exists b c r, ts = b ++ c :: r /\ s = c :: r /\ k_type c = BRACKET_CURLY_CLOSE /\ nestedc b).
Proof.
  intros Ho. cbn [find_curly]. teq. cbn. split.
  - intros H. apply curly_inv in H; [|lia]. destruct H as (b & c & r & -> & -> & Hc & Hd).
    exists b, c, r. repeat split; auto. inversion Hd; assumption.
  - intros (b & c & r & -> & -> & Hc & Hb). rewrite curly_skip by (auto; lia). cbn. teq. reflexivity.
Qed.

Lemma copy_until_app b : forall o c r, 
  copy_until (S (length (c :: r))) (o :: b ++ c :: r) = Ok (b, c :: r).
Proof.
  induction b as [|t b IH]; intros o c r; cbn -[length Nat.eqb].
  - cbn [app length]. rewrite Nat.eqb_refl. reflexivity.
  - replace (length (o :: t :: b ++ c :: r) =? S (length (c :: r)))%nat with false.
    2: { symmetry. apply Nat.eqb_neq. cbn. rewrite app_length. cbn. lia. }
    specialize (IH t c r). cbn [copy_until app] in IH. rewrite IH. reflexivity.
Qed.

Lemma collect_scope_iff ts body rest :
  collect_scope ts = Ok (body, rest) <->
  exists o c r, ts = o :: body ++ c :: r /\ rest = c :: r /\ k_type o = BRACKET_CURLY_OPEN /\
    k_type c = BRACKET_CURLY_CLOSE /\ nestedc body.
Proof.
  unfold collect_scope. split.
  - destruct ts as [|o ts]; [discriminate|]. cbn [expect].
    destruct (ttype_eqb (k_type o) BRACKET_CURLY_OPEN) eqn:Eo; [|discriminate].
    apply ttype_eqb_spec in Eo. cbn [rbind].
    destruct (find_curly BRACKET_CURLY_CLOSE 0 (o :: ts)) as [s| | |] eqn:E; try discriminate.
    apply find_curly_iff in E; [|exact Eo]. destruct E as (b & c & r & -> & -> & Hc & Hb).
    cbn [rbind]. rewrite copy_until_app. cbn [rbind snd expect]. teq. cbn.
    intros H. injection H as <- <-. exists o, c, r. auto.
  - intros (o & c & r & -> & -> & Ho & Hc & Hb). cbn [expect]. teq. cbn [rbind].
    assert (E : find_curly BRACKET_CURLY_CLOSE 0 (o :: body ++ c :: r) = Ok (c :: r)).
    { apply find_curly_iff; [exact Ho|]. exists body, c, r. auto. }
    rewrite E. cbn [rbind]. rewrite copy_until_app. cbn [rbind snd expect]. teq. reflexivity.
Qed.

(** Parser::collectScopeTokens *)
Lemma collect_loop_skip b : nestedc b -> forall n r x, (0 <= n)%Z -> collect_loop n r = Ok x ->
  collect_loop n (b ++ r) = Ok (b ++ fst x, snd x).
Proof.
  intros Hb. induction Hb as [|t l H1 H2 H IH|o a c l H1 H2 Ha IHa Hl IHl]; intros n r x Hn E.
  - cbn. rewrite E. destruct x; reflexivity.
  - cbn. teq. cbn. rewrite (IH n r x Hn E). reflexivity.
  - cbn [app collect_loop]. teq. cbn. rewrite <- app_assoc. cbn [app].
    assert (E' : collect_loop (n + 1) (c :: l ++ r) = Ok (c :: l ++ fst x, snd x)).
    { cbn [collect_loop]. teq. replace (0 <? n + 1)%Z with true by (symmetry; apply Z.ltb_lt; lia). cbn.
      replace (n + 1 - 1)%Z with n by lia. rewrite (IHl n r x Hn E). reflexivity. }
    rewrite (IHa (n + 1)%Z (c :: l ++ r) _ ltac:(lia) E'). cbn. rewrite <- app_assoc. reflexivity.
Qed.
Lemma collect_loop_inv ts : forall n x, (0 <= n)%Z -> collect_loop n ts = Ok x ->
  exists c r, ts = fst x ++ c :: r /\ snd x = c :: r /\ k_type c = BRACKET_CURLY_CLOSE /\
    deep BRACKET_CURLY_OPEN BRACKET_CURLY_CLOSE (Z.to_nat n) (fst x).
Proof.
  assert (Hoc : BRACKET_CURLY_OPEN <> BRACKET_CURLY_CLOSE) by discriminate.
  induction ts as [|t ts IH]; intros n x Hn H; [discriminate|].
  cbn [collect_loop] in H.
  destruct (ttype_eqb (k_type t) BRACKET_CURLY_CLOSE) eqn:E2.
  - cbn in H. apply ttype_eqb_spec in E2. destruct (0 <? n)%Z eqn:E.
    + apply Z.ltb_lt in E. rewrite E2 in H. cbn in H.
      destruct (collect_loop (n - 1) ts) as [y| | |] eqn:E'; try discriminate.
      apply IH in E'; [|lia]. destruct E' as (c & r & -> & E'' & Hc & Hd). cbn in H. injection H as <-.
      exists c, r. cbn. repeat split; auto.
      replace (Z.to_nat n) with (S (Z.to_nat (n - 1))) by lia. apply deep_close; auto.
    + apply Z.ltb_ge in E. assert (n = 0)%Z by lia. subst. injection H as <-.
      exists t, ts. repeat split; auto. constructor. constructor.
  - cbn in H. destruct (ttype_eqb (k_type t) BRACKET_CURLY_OPEN) eqn:E1.
    + apply ttype_eqb_spec in E1.
      destruct (collect_loop (n + 1) ts) as [y| | |] eqn:E'; try discriminate.
      apply IH in E'; [|lia]. destruct E' as (c & r & -> & E'' & Hc & Hd). cbn in H. injection H as <-.
      exists c, r. cbn. repeat split; auto. apply deep_open; auto.
      replace (S (Z.to_nat n)) with (Z.to_nat (n + 1)) by lia. exact Hd.
    + apply ttype_eqb_neq in E1, E2.
      destruct (collect_loop n ts) as [y| | |] eqn:E'; try discriminate.
      apply IH in E'; [|lia]. destruct E' as (c & r & -> & E'' & Hc & Hd). cbn in H. injection H as <-.
      exists c, r. cbn. repeat split; auto. apply deep_other; auto.
Qed.
Lemma parser_collect_iff ts body rest :
  parser_collect_scope ts = Ok (body, rest) <->
  exists o c r, ts = o :: body ++ c :: r /\ rest = c :: r /\ k_type o = BRACKET_CURLY_OPEN /\
    k_type c = BRACKET_CURLY_CLOSE /\ nestedc body.
Proof.
  unfold parser_collect_scope. split.
  - destruct ts as [|o ts]; [discriminate|]. cbn [expect].
    destruct (ttype_eqb (k_type o) BRACKET_CURLY_OPEN) eqn:Eo; [|discriminate].
    apply ttype_eqb_spec in Eo. cbn [rbind]. intros H. apply collect_loop_inv in H; [|lia].
    destruct H as (c & r & -> & E & Hc & Hd). cbn in *. exists o, c, r. repeat split; auto.
    inversion Hd; assumption.
  - intros (o & c & r & -> & -> & Ho & Hc & Hb). cbn [expect]. teq. cbn [rbind].
    rewrite (collect_loop_skip body Hb 0 (c :: r) ([], c :: r)); [|lia|].
    + cbn. rewrite app_nil_r. reflexivity.
    + cbn. teq. reflexivity.
Qed.

(** The counters of the sanity check. *)
Lemma count_brackets_spec op cl ts : op <> cl -> forall n,
  count_brackets op cl n ts = (n + Z.of_nat (occurrences op ts) - Z.of_nat (occurrences cl ts))%Z.
Proof.
  intros Hoc. unfold occurrences. induction ts as [|t ts IH]; intros n; cbn; [lia|].
  rewrite IH. destruct (ttype_eqb (k_type t) op) eqn:E1.
  - apply ttype_eqb_spec in E1. replace (ttype_eqb (k_type t) cl) with false.
    + cbn [length]. lia.
    + symmetry. apply ttype_eqb_neq. congruence.
  - destruct (ttype_eqb (k_type t) cl); cbn [length]; lia.
Qed.
Lemma quotes_open_spec ts : forall q, quotes_open q ts = xorb q (Nat.odd (occurrences QUOTATION_DOUBLE ts)).
Proof.
  unfold occurrences. induction ts as [|t ts IH]; intros q; cbn [quotes_open List.filter].
  - cbn. destruct q; reflexivity.
  - rewrite IH. destruct (ttype_eqb (k_type t) QUOTATION_DOUBLE); [|reflexivity].
    cbn [length]. rewrite Nat.odd_succ, <- Nat.negb_odd.
    destruct q, (Nat.odd (length (List.filter (fun t0 => ttype_eqb (k_type t0) QUOTATION_DOUBLE) ts))); reflexivity.
Qed.
Lemma nested_counts op cl ts : op <> cl -> nested op cl ts -> occurrences op ts = occurrences cl ts.
Proof.
  intros Hoc H. unfold occurrences. induction H as [|t l H1 H2 H IH|o a c l H1 H2 Ha IHa Hl IHl]; [reflexivity| |].
  - cbn. teq. exact IH.
  - cbn [List.filter]. rewrite !List.filter_app. cbn [List.filter]. teq. rewrite !app_length. cbn [length app]. teq.
    rewrite !app_length. cbn [length]. lia.
Qed.
