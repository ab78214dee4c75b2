(** C59: ranges. *)
From Verif Require Import Base Value_Model Range_Model Range_Spec SysStr_Proofs.
From Coq Require Import Sorting.Sorted.


Section Up.
  Context (first last step : Z) (Hf : int first) (Hl : int last) (Hs : (0 < step < 2 ^ 31)%Z) (Hle : (first <= last)%Z)
    (Hd : (last - first < 2 ^ 31 - 1)%Z).
  Local Notation r := (Rng first last step).
  Local Definition count : Z := ((last - first) / step + 1)%Z.
  Local Lemma count_bounds : (0 < count < 2 ^ 31)%Z.
  Proof using Hd Hle Hs. unfold count. assert (0 <= (last - first) / step)%Z by (apply Z.div_pos; lia). assert ((last - first) / step <= last - first)%Z; [|lia].
    apply Z.div_le_upper_bound; [lia|]. nia. Qed.
  Local Lemma size_is : range_size r = Ok count.
  Proof using Hd Hle Hs.
    pose proof count_bounds as Hb. unfold range_size. cbn [r_start r_end r_step]. rewrite checked32 by lia. cbn [rbind]. rewrite Z.quot_div_nonneg by lia.
    unfold count in *. rewrite checked32 by lia. cbn [rbind]. by rewrite checked32 by lia.
  Qed.
  Local Lemma at_is i : (0 <= i < count)%Z -> range_at r i = Ok (first + i * step)%Z.
  Proof using Hd Hle Hs Hf Hl.
    intros Hi. assert (0 <= i * step <= last - first)%Z as Ho.
    { unfold count in Hi. assert (i <= (last - first) / step)%Z by lia. pose proof (Z.mul_div_le (last - first) step). nia. }
    unfold range_at. destruct (Z.ltb_spec i 0); [lia|]. cbn [r_start r_end r_step]. rewrite checked32 by lia. cbn [rbind]. rewrite checked32 by lia. cbn [rbind].
    destruct (Z.ltb_spec (last - first) (i * step)); [lia|]. unfold int in *. by rewrite checked32 by lia.
  Qed.
  Local Definition numbers (i : Z) (n : nat) : list Z := map (fun k => first + (i + Z.of_nat k) * step)%Z (seq 0 n).
  Local Lemma numbers_S i n : numbers i (S n) = (first + i * step)%Z :: numbers (i + 1) n.
  Proof.
    unfold numbers. cbn [seq map]. f_equal; [f_equal; lia|]. rewrite <- seq_shift, map_map. apply map_ext. intros k. f_equal. lia.
  Qed.
  Local Lemma all_is fuel : forall i, (-1 <= i < count)%Z -> (count - i <= Z.of_nat fuel)%Z -> ra_all fuel r i = Ok (numbers (i + 1) (Z.to_nat (count - (i + 1)))).
  Proof using Hd Hle Hs Hf Hl.
    pose proof count_bounds as Hb. induction fuel as [|fuel IH]; intros i Hi Hfu; [lia|]. cbn [ra_all]. unfold ra_next, ra_has_next. rewrite checked32 by lia. cbn [rbind]. rewrite size_is. cbn [rbind].
    destruct (Z.ltb_spec (i + 1) count) as [H|H].
    - cbn [rbind]. rewrite at_is by lia. cbn [rbind fst snd]. rewrite IH by lia. cbn [rbind].
      replace (Z.to_nat (count - (i + 1))) with (S (Z.to_nat (count - (i + 1 + 1)))) by lia. by rewrite numbers_S.
    - by replace (Z.to_nat (count - (i + 1))) with 0%nat by lia.
  Qed.
  Local Lemma reverse_is fuel : forall n, (Z.of_nat n <= count)%Z -> (n < fuel)%nat -> rra_all fuel r (Z.of_nat n) = Ok (reverse (numbers 0 n)).
  Proof using Hd Hle Hs Hf Hl.
    pose proof count_bounds as Hb. induction fuel as [|fuel IH]; intros n Hn Hfu; [lia|]. cbn [rra_all]. unfold rra_next, rra_has_next.
    destruct n as [|n]; [done|]. destruct (Z.ltb_spec 0 (Z.of_nat (S n))); [|lia]. rewrite checked32 by lia. cbn [rbind].
    rewrite at_is by lia. cbn [rbind fst snd]. replace (Z.of_nat (S n) - 1)%Z with (Z.of_nat n) by lia. rewrite IH by lia. cbn [rbind]. f_equal.
    unfold numbers. rewrite seq_S, map_app, reverse_app. done.
  Qed.
  Local Lemma numbers_in i n x : x ∈ numbers i n <-> exists k, (i <= k < i + Z.of_nat n)%Z /\ x = (first + k * step)%Z.
  Proof.
    unfold numbers. rewrite elem_of_list_In, in_map_iff. split.
    - intros (k & <- & Hk). apply in_seq in Hk. exists (i + Z.of_nat k)%Z. split; [lia|done].
    - intros (k & Hk & ->). exists (Z.to_nat (k - i)). split; [by replace (i + Z.of_nat (Z.to_nat (k - i)))%Z with k by lia|]. apply in_seq. lia.
  Qed.
  Local Lemma numbers_sorted n : forall i, StronglySorted Z.lt (numbers i n).
  Proof using Hs.
    induction n as [|n IH]; intros i; [constructor|]. rewrite numbers_S. constructor; [done|]. apply List.Forall_forall. intros x Hx.
    apply elem_of_list_In, numbers_in in Hx as (k & Hk & ->). nia.
  Qed.
  Local Lemma enumerated : enumerates first last step (numbers 0 (Z.to_nat count)).
  Proof using Hd Hle Hs.
    pose proof count_bounds as Hb. split; [apply numbers_sorted|]. intros x. rewrite numbers_in. split.
    - intros (k & Hk & ->). split; [|by exists k]. assert (k <= (last - first) / step)%Z by (unfold count in Hk; lia). pose proof (Z.mul_div_le (last - first) step). nia.
    - intros (Hx & k & ->). exists k. split; [|done]. assert (0 <= k)%Z by nia. assert (k <= (last - first) / step)%Z; [|unfold count; lia].
      apply Z.div_le_lower_bound; nia.
  Qed.
End Up.

(** Iterating over an ascending range. *)
Theorem C59_ascending first last step r fuel :
  int first -> int last -> (0 < step < 2 ^ 31)%Z -> (first <= last)%Z -> (last - first < 2 ^ 31 - 1)%Z ->
  range_new first last step = Ok r -> (last - first + 2 <= Z.of_nat fuel)%Z ->
  exists l, range_list fuel r = Ok l /\ enumerates first last step l /\ range_size r = Ok (Z.of_nat (length l)) /\
    range_reverse fuel r = Ok (reverse l) /\ forall i x, l !! i = Some x -> range_at r (Z.of_nat i) = Ok x.
Proof.
  intros Hf Hl Hs Hle Hd Hr Hfu. assert (r = Rng first last step) as ->.
  { unfold range_new in Hr. destruct (Z.eqb_spec step 0); [lia|by injection Hr]. }
  pose proof (count_bounds first last step Hs Hle Hd) as Hb. set (n := count first last step) in *.
  assert (n <= last - first + 1)%Z as Hn.
  { subst n. unfold count. assert ((last - first) / step <= last - first)%Z; [|lia]. apply Z.div_le_upper_bound; [lia|]. nia. }
  exists (numbers first step 0 (Z.to_nat n)). split_and!.
  - unfold range_list. rewrite all_is by (done || fold n; lia). fold n. f_equal. f_equal. f_equal. lia.
  - by apply enumerated.
  - rewrite size_is by done. fold n. unfold numbers. rewrite map_length, seq_length. f_equal. lia.
  - unfold range_reverse. rewrite size_is by done. fold n. cbn [rbind]. rewrite <- (Z2Nat.id n) at 1 by lia. apply reverse_is; [done..| |]; fold n; lia.
  - intros i x Hx. assert (i < length (numbers first step 0 (Z.to_nat n)))%nat as Hi by (by eapply lookup_lt_Some).
    unfold numbers in Hi. rewrite map_length, seq_length in Hi. rewrite at_is by (done || fold n; lia).
    unfold numbers in Hx. apply list_lookup_fmap_Some in Hx as (k & Hk & ->). apply lookup_seq in Hk as [-> _]. done.
Qed.
Example C59_ascending_ex : range_list 20 (Rng 3 12 4) = Ok [3; 7; 11]%Z /\ range_reverse 20 (Rng 3 12 4) = Ok [11; 7; 3]%Z.
Proof. by vm_compute. Qed.
Print Assumptions C59_ascending.
(** A list that enumerates the range is determined by it. *)
Theorem C59_enumeration_unique first last step l l' : enumerates first last step l -> enumerates first last step l' -> l = l'.
Proof.
  intros [H1 H2] [H3 H4]. assert (forall x, x ∈ l <-> x ∈ l') as H by (intros x; by rewrite H2, H4). clear H2 H4. revert l' H3 H.
  induction H1 as [|a l Hl IH Ha]; intros l' Hl' H.
  - destruct l' as [|b l']; [done|]. exfalso. assert (b ∈ @nil Z) by (apply H; left). by apply elem_of_nil in H0.
  - destruct Hl' as [|b l' Hl' Hb].
    { exfalso. assert (a ∈ @nil Z) by (apply H; left). by apply elem_of_nil in H0. }
    rewrite List.Forall_forall in Ha, Hb.
    assert (a = b) as ->.
    { assert (a ∈ b :: l') as Ha' by (apply H; left). assert (b ∈ a :: l) as Hb' by (apply H; left).
      apply elem_of_cons in Ha' as [?|Ha']; [done|]. apply elem_of_cons in Hb' as [?|Hb']; [done|].
      apply elem_of_list_In in Ha', Hb'. specialize (Hb _ Ha'). specialize (Ha _ Hb'). lia. }
    f_equal. apply IH; [done|]. intros x. split; intros Hx.
    + assert (x ∈ b :: l') as Hx' by (apply H; by right). apply elem_of_cons in Hx' as [->|]; [|done]. apply elem_of_list_In in Hx. specialize (Ha _ Hx). lia.
    + assert (x ∈ b :: l) as Hx' by (apply H; by right). apply elem_of_cons in Hx' as [->|]; [|done]. apply elem_of_list_In in Hx. specialize (Hb _ Hx). lia.
Qed.
Print Assumptions C59_enumeration_unique.
(** An ascending range whose start lies at least one step behind its end is empty. *)
Theorem C59_empty_partial first last step fuel :
  int first -> int last -> (0 < step < 2 ^ 31)%Z -> (step <= first - last < 2 ^ 31)%Z -> (0 < fuel)%nat ->
  range_list fuel (Rng first last step) = Ok [].
Proof.
  intros Hf Hl Hs Hd Hfu. destruct fuel as [|fuel]; [lia|]. unfold range_list. cbn [ra_all]. unfold ra_has_next. change (checked 32 (-1 + 1)) with (Ok 0%Z). cbn [rbind].
  unfold range_size. cbn [r_start r_end r_step]. rewrite checked32 by lia. cbn [rbind].
  assert (- (first - last) <= Z.quot (last - first) step <= -1)%Z as Hq.
  { replace (last - first)%Z with (- (first - last))%Z by lia. rewrite Z.quot_opp_l by lia. rewrite Z.quot_div_nonneg by lia.
    assert (1 <= (first - last) / step)%Z by (apply Z.div_le_lower_bound; lia).
    assert ((first - last) / step <= first - last)%Z by (apply Z.div_le_upper_bound; [lia|nia]). lia. }
  rewrite checked32 by lia. cbn [rbind]. rewrite checked32 by lia. cbn [rbind].
  destruct (Z.ltb_spec 0 (Z.quot (last - first) step + 1)); [lia|done].
Qed.
Example C59_empty_partial_ex : range_list 20 (Rng 5 3 2) = Ok [].
Proof. by vm_compute. Qed.
Print Assumptions C59_empty_partial.
(** Missing above: a start less than one step behind the end. The range has size one, but its only element is out of bounds. *)
Theorem C59_empty_refuted first last step fuel :
  int first -> int last -> (0 < step < 2 ^ 31)%Z -> (0 < first - last < step)%Z -> (0 < fuel)%nat ->
  range_list fuel (Rng first last step) = Throw "OutOfBoundsException" /\ enumerates first last step [].
Proof.
  intros Hf Hl Hs Hd Hfu. split.
  - destruct fuel as [|fuel]; [lia|]. unfold range_list. cbn [ra_all]. unfold ra_next, ra_has_next. change (checked 32 (-1 + 1)) with (Ok 0%Z). cbn [rbind].
    unfold range_size. cbn [r_start r_end r_step]. rewrite checked32 by lia. cbn [rbind].
    assert (Z.quot (last - first) step = 0)%Z as ->.
    { replace (last - first)%Z with (- (first - last))%Z by lia. rewrite Z.quot_opp_l by lia. rewrite Z.quot_div_nonneg by lia. rewrite Z.div_small by lia. done. }
    change (checked 32 0) with (Ok 0%Z). cbn [rbind]. change (checked 32 (0 + 1)) with (Ok 1%Z). cbn [rbind]. change (0 <? 1)%Z with true. cbn [rbind].
    unfold range_at. change (0 <? 0)%Z with false. cbn [r_start r_end r_step]. rewrite checked32 by lia. cbn [rbind]. rewrite checked32 by lia. cbn [rbind].
    destruct (Z.ltb_spec (last - first) (0 * step)); [done|lia].
  - split; [constructor|]. intros x. split; [by intros ?%elem_of_nil|lia].
Qed.
Example C59_empty_refuted_ex : range_list 20 (Rng 5 4 2) = Throw "OutOfBoundsException".
Proof. by vm_compute. Qed.
Print Assumptions C59_empty_refuted.
(** Counting down fails at the first element, however many there should be. *)
Theorem C59_descending_refuted first last step fuel :
  int first -> int last -> (- 2 ^ 31 <= step < 0)%Z -> (0 < first - last < 2 ^ 31 - 1)%Z -> (0 < fuel)%nat ->
  range_list fuel (Rng first last step) = Throw "OutOfBoundsException".
Proof.
  intros Hf Hl Hs Hd Hfu. destruct fuel as [|fuel]; [lia|]. unfold range_list. cbn [ra_all]. unfold ra_next, ra_has_next. change (checked 32 (-1 + 1)) with (Ok 0%Z). cbn [rbind].
  unfold range_size. cbn [r_start r_end r_step]. rewrite checked32 by lia. cbn [rbind].
  assert (0 <= Z.quot (last - first) step <= first - last)%Z as Hq.
  { replace (last - first)%Z with (- (first - last))%Z by lia. replace step with (- (- step))%Z by lia. rewrite Z.quot_opp_opp by lia. rewrite Z.quot_div_nonneg by lia.
    split; [apply Z.div_pos; lia|]. apply Z.div_le_upper_bound; [lia|nia]. }
  rewrite checked32 by lia. cbn [rbind]. rewrite checked32 by lia. cbn [rbind].
  destruct (Z.ltb_spec 0 (Z.quot (last - first) step + 1)); [|lia]. cbn [rbind].
  unfold range_at. change (0 <? 0)%Z with false. cbn [r_start r_end r_step]. rewrite checked32 by lia. cbn [rbind]. rewrite checked32 by lia. cbn [rbind].
  destruct (Z.ltb_spec (last - first) (0 * step)); [done|lia].
Qed.
Example C59_descending_refuted_ex : range_list 20 (Rng 5 1 (-1)) = Throw "OutOfBoundsException" /\ range_size (Rng 5 1 (-1)) = Ok 5%Z.
Proof. by vm_compute. Qed.
Print Assumptions C59_descending_refuted.
(** A step of zero is refused. *)
Theorem C59_zero_step first last r : (exists e, range_new first last 0 = Throw e) /\ exists e, range_step r 0 = Throw e.
Proof. split; eexists; reflexivity. Qed.
Print Assumptions C59_zero_step.
(** A range with another step has the same ends. *)
Theorem C59_new_step first last step step' r : range_new first last step = Ok r -> step' <> 0%Z ->
  range_step r step' = range_new first last step' /\ exists r', range_step r step' = Ok r'.
Proof.
  unfold range_step, range_new. destruct (step =? 0)%Z; [discriminate|]. intros [= <-] H.
  destruct (Z.eqb_spec step' 0); [done|]. cbn [r_start r_end]. eauto.
Qed.
Print Assumptions C59_new_step.
Example C59_new_step_ex : exists r, range_new 1 9 1 = Ok r /\ range_step r 2 = Ok (Rng 1 9 2).
Proof. eexists. by split. Qed.
(** What next() has returned is the current value until the next call; before the first call there is none. *)
Theorem C59_current r i x i' : (-1 <= i)%Z -> ra_next r i = Ok (x, i') -> ra_current r i' = Ok x.
Proof.
  unfold ra_next. intros Hi. destruct (ra_has_next r i) as [[]| | |]; cbn [rbind]; try discriminate.
  unfold checked at 1. destruct (in_range _ _) eqn:E; cbn [rbind]; [|discriminate].
  destruct (range_at r (i + 1)) as [y| | |] eqn:E2; cbn [rbind]; try discriminate. intros [= <- <-]. unfold ra_current.
  destruct (Z.eqb_spec (i + 1) (-1)); [lia|done].
Qed.
Print Assumptions C59_current.
Theorem C59_no_current r : ra_current r (-1) = Throw "Exception".
Proof. done. Qed.
Print Assumptions C59_no_current.
Example C59_current_ex : ra_next (Rng 3 9 2) 0 = Ok (5%Z, 1%Z) /\ ra_current (Rng 3 9 2) 1 = Ok 5%Z.
Proof. by vm_compute. Qed.
