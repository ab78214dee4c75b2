From Coq Require Import Floats.SpecFloat.
From Verif Require Import Base Base_Proofs Text_Model Text_Proofs Text_Props Tok_Model Tok_Proofs TypeTable TypeSys_Model Value_Model Value_Spec Value_Proofs Value_Proofs2.

(** ** Static table: errors and user types *)
Lemma get_type_error ds l op r :
  first_result ds l op r = None ->
  (~ in_left ds l -> get_type (define_all [] ds) l op r = Throw "UnknownIdentifier") /\
  (in_left ds l -> ~ in_op ds l op -> get_type (define_all [] ds) l op r = Throw "UnknownOperation") /\
  (in_op ds l op -> get_type (define_all [] ds) l op r = Throw "TypeMismatch").
Proof.
  intros E.
  assert (L : existsb (has_left l) (define_all [] ds) = true <-> in_left ds l)
    by (rewrite existsb_left, define_all_left; done).
  assert (O : existsb (has_op l op) (define_all [] ds) = true <-> in_op ds l op)
    by (rewrite existsb_op, define_all_op; done).
  assert (Fn : find (has_all l op r) (define_all [] ds) = None).
  { pose proof (define_all_first ds [] l op r) as D. rewrite first_result_find in D. cbn [app] in D.
    rewrite E in D. by destruct (find _ _). }
  unfold get_type. rewrite Fn. split_and!.
  - intros N. destruct (existsb (has_left l) _); [tauto|done].
  - intros Y N. apply L in Y as ->. cbn [negb]. destruct (existsb (has_op l op) _); [tauto|done].
  - intros Y. assert (in_left ds l) as Y' by (destruct Y as (r' & x & H); by exists op, r', x).
    apply L in Y' as ->. apply O in Y as ->. done.
Qed.

Lemma first_result_same ds l op r x :
  (exists t, (l, op, r, t) ∈ ds) -> (forall t, (l, op, r, t) ∈ ds -> t = x) -> first_result ds l op r = Some x.
Proof.
  intros [t H] A. apply elem_first in H as [y H]. rewrite H. f_equal. apply A. by apply first_result_Some_elem.
Qed.

(** ** Truth of texts *)
Lemma to_lower_char c d : (97 <= N_of_ascii d <= 122)%N -> to_lower c = d <-> lower_or_upper c d.
Proof.
  intros Hd.
  assert (H : forall c, implb (let n := N_of_ascii (to_lower c) in (97 <=? n)%N && (n <=? 122)%N)
            ((bool_decide (to_lower c = c)) || (N_of_ascii c + 32 =? N_of_ascii (to_lower c))%N) = true).
  { apply char_forall. by vm_compute. }
  assert (H2 : forall c, implb ((97 <=? N_of_ascii c) && (N_of_ascii c <=? 122))%N (bool_decide (to_lower c = c)) = true).
  { apply char_forall. by vm_compute. }
  assert (H3 : forall c, implb ((65 <=? N_of_ascii c) && (N_of_ascii c <=? 90))%N (N_of_ascii c + 32 =? N_of_ascii (to_lower c))%N = true).
  { apply char_forall. by vm_compute. }
  split.
  - intros <-. specialize (H c). cbn zeta in H.
    rewrite (proj2 (N.leb_le 97 _)), (proj2 (N.leb_le _ 122)) in H by lia. cbn [andb implb] in H.
    apply orb_true_iff in H as [H|H].
    + apply bool_decide_eq_true in H. rewrite H. by left.
    + apply N.eqb_eq in H. right. done.
  - intros [->|[E R]].
    + specialize (H2 d). rewrite (proj2 (N.leb_le 97 _)), (proj2 (N.leb_le _ 122)) in H2 by lia.
      by apply bool_decide_eq_true in H2.
    + specialize (H3 c). rewrite (proj2 (N.leb_le 65 _)), (proj2 (N.leb_le _ 90)) in H3 by lia.
      cbn [andb implb] in H3. apply N.eqb_eq in H3. apply N_of_ascii_inj. lia.
Qed.
Lemma lower_false core : to_lower_case core = $"false" <-> Forall2 lower_or_upper core ($"false").
Proof.
  assert (K : forall w, Forall (fun d => 97 <= N_of_ascii d <= 122)%N w -> forall c, to_lower_case c = w <-> Forall2 lower_or_upper c w).
  { intros w Hw. induction Hw as [|d w Hd Hw IH]; intros [|x c].
    - split; [constructor|done].
    - split; [done|intros H; inversion H].
    - split; [done|intros H; inversion H].
    - cbn [to_lower_case map]. split.
      + intros H. injection H as H1 H2. constructor; [by apply to_lower_char|by apply IH].
      + intros H. inversion H as [|? ? ? ? H1 H2]; subst. f_equal; [by apply to_lower_char|by apply IH]. }
  apply K. rewrite Forall_forall. intros d Hd. apply elem_of_list_In in Hd. cbn in Hd.
  destruct Hd as [<-|[<-|[<-|[<-|[<-|[]]]]]]; vm_compute; split; discriminate.
Qed.
Lemma blanks_run l : Forall (fun c => c ∈ $" ") l -> l = blank_run (length l).
Proof.
  induction 1 as [|c l Hc Hl IH]; [done|].
  apply elem_of_list_singleton in Hc as ->. cbn [length]. unfold blank_run. cbn [replicate]. by rewrite IH at 1.
Qed.
Lemma run_blanks n : Forall (fun c => c ∈ $" ") (blank_run n).
Proof. induction n; constructor; [by apply elem_of_list_singleton|done]. Qed.
Lemma lower_nl core : to_lower_case core = [chr 10] <-> core = [chr 10].
Proof.
  split; [|intros ->; by vm_compute].
  destruct core as [|c [|]]; [done| |done]. intros [= H].
  assert (K : forall c, implb (bool_decide (to_lower c = chr 10)) (bool_decide (c = chr 10)) = true).
  { apply char_forall. by vm_compute. }
  specialize (K c). rewrite bool_decide_eq_true_2 in K by done. cbn [implb] in K.
  apply bool_decide_eq_true in K as ->. done.
Qed.
Lemma string_to_bool_false s : string_to_bool s = false <-> falsy s.
Proof.
  unfold string_to_bool. rewrite !andb_false_iff, !negb_false_iff, !bool_decide_eq_true, lower_nl, lower_false.
  split.
  - intros H. destruct (C46_trim_exact ($" ") s) as (l & r & E & Hl & Hr & _).
    exists (length l), (length r), (trim ($" ") s). rewrite <- (blanks_run l), <- (blanks_run r) by done.
    split; [done|]. destruct H as [[H|H]|H]; [left; by destruct (trim _ s)|by right; left|by right; right].
  - intros (i & j & core & E & H).
    assert (T : core <> [] -> trim ($" ") s = core).
    { intros N. apply C46_trim_characterised. exists (blank_run i), (blank_run j). split; [done|].
      split; [apply run_blanks|]. split; [apply run_blanks|].
      assert (forall c, c ∈ core -> c ∉ $" ") as HC.
      { intros c Hc Hb. apply elem_of_list_singleton in Hb as ->. destruct H as [->|[->|H]].
        - by apply elem_of_nil in Hc.
        - apply elem_of_list_singleton in Hc. discriminate.
        - assert (Forall (fun c => c <> " "%char) core) as Q.
          { apply lower_false in H. apply Forall_forall. intros c Hc' ->.
            assert (to_lower " "%char ∈ to_lower_case core) as M by (apply elem_of_list_fmap_1; done).
            rewrite H in M. apply elem_of_list_In in M. cbn in M.
            destruct M as [M|[M|[M|[M|[M|[]]]]]]; discriminate. }
          rewrite Forall_forall in Q. by apply (Q _ Hc). }
      split; intros c w ->; apply HC; [left|]. apply elem_of_app. right. by apply elem_of_list_singleton. }
    destruct H as [->|H].
    + left. left. cbn [app] in E. assert (trim ($" ") s = []) as ->; [|done].
      apply C46_trim_characterised. exists (blank_run i), (blank_run j).
      split; [done|]. split; [apply run_blanks|]. split; [apply run_blanks|].
      split; intros c w Hw; [done|]. by destruct w.
    + rewrite T by (destruct H as [->|H]; [done|]; intros ->; inversion H). destruct H as [->|H]; auto.
Qed.
Lemma string_to_bool_nonfalsy s : string_to_bool s = true <-> ~ falsy s.
Proof. rewrite <- string_to_bool_false. destruct (string_to_bool s); split; congruence. Qed.

(** ** Dictionary order *)
Lemma before_ltb s : forall t, before s t <-> str_ltb s t = true.
Proof.
  induction s as [|c s IH]; intros [|d t]; cbn [str_ltb].
  - split; [intros H; inversion H|done].
  - split; [done|constructor].
  - split; [intros H; inversion H|done].
  - destruct (N.ltb_spec (N_of_ascii c) (N_of_ascii d)) as [L|L]; [split; [done|by constructor]|].
    destruct (N.ltb_spec (N_of_ascii d) (N_of_ascii c)) as [G|G].
    + split; [|done]. intros H; inversion H; subst; lia.
    + assert (c = d) as -> by (apply N_of_ascii_inj; lia). rewrite <- IH.
      split; [intros H; inversion H; subst; [lia|done]|by constructor].
Qed.
Lemma str_cmp_order s t c :
  str_cmp c s t = true <-> match c with CEq => s = t | CLt => before s t | CLe => before s t \/ s = t
                             | CGt => before t s | CGe => before t s \/ s = t end.
Proof.
  destruct c; cbn [str_cmp]; rewrite ?str_eqb_eq, ?before_ltb, ?negb_true_iff; try done.
  - split.
    + intros H. destruct (str_ltb s t) eqn:E; [by left|right]. by apply str_ltb_total.
    + intros [H| ->]; [by apply str_ltb_asym|apply str_ltb_irrefl].
  - split.
    + intros H. destruct (str_ltb t s) eqn:E; [by left|right]. by apply str_ltb_total.
    + intros [H| ->]; [by apply str_ltb_asym|apply str_ltb_irrefl].
Qed.
Lemma z_cmp_order (a b : Z) c :
  z_cmp c a b = true <-> match c with CEq => a = b | CLt => (a < b)%Z | CLe => (a < b)%Z \/ a = b
                           | CGt => (b < a)%Z | CGe => (b < a)%Z \/ a = b end.
Proof. destruct c; cbn [z_cmp]; rewrite ?Z.eqb_eq, ?Z.ltb_lt, ?Z.leb_le; lia. Qed.
