(** C55, C61, C62: library strings. *)
From Verif Require Import Base Base_Proofs Text_Model Text_Props Value_Model SysStr_Model SysStr_Spec SysStr_Proofs.

(** Whatever is done to a string except appending with [<<], its length is the number of its characters. *)
Theorem C55_length_counts ops v o :
  Forall (fun op => match op with SAppend _ => False | _ => True end) ops ->
  srun ops (ss_new v) = Ok o -> (Z.of_nat (length (so_value o)) < 2 ^ 31)%Z ->
  so_size o = Z.of_nat (length (so_value o)).
Proof.
  intros Hn H Hl. assert (counted o) as Hc by (apply (srun_counted ops (ss_new v) o Hn); [reflexivity|exact H]). unfold counted in Hc. rewrite Hc. by apply str_len_short.
Qed.
Example C55_length_counts_ex :
  srun [SReplace ($"l") ($"LL"); SRemove 0; STrim; SRemove 99; SCutRight 2] (ss_new ($"  hello ")) = Ok (SStr 4 ($"heLL")).
Proof. by vm_compute. Qed.
Print Assumptions C55_length_counts.
(** Appending changes the text but not the length. *)
Theorem C55_append_length_refuted : exists ops v o,
  srun ops (ss_new v) = Ok o /\ so_size o <> Z.of_nat (length (so_value o)).
Proof. exists [SAppend ($"world")], ($"hello "), (SStr 6 ($"hello world")). split; [by vm_compute|done]. Qed.
Print Assumptions C55_append_length_refuted.
Theorem C55_append_length o v : v <> [] -> so_size o = Z.of_nat (length (so_value o)) ->
  so_value (ss_append o v) = so_value o ++ v /\ so_size (ss_append o v) <> Z.of_nat (length (so_value (ss_append o v))).
Proof.
  intros Hv H. split; [done|]. cbn [ss_append so_size so_value]. rewrite H, app_length. destruct v; [done|]. cbn [length]. lia.
Qed.
Print Assumptions C55_append_length.

(** Replacing: exactly the first place, everything around it kept. *)
Theorem C55_replace_first o a old b new :
  so_value o = a ++ old ++ b -> short (so_value o) ->
  (forall j, (j < Z.of_nat (length a))%Z -> ~ occurs (so_value o) old j) ->
  exists o', replace o old new = Ok (o', true) /\ so_value o' = a ++ new ++ b.
Proof. intros E Hs Hf. exists (ss_new (a ++ new ++ b)). split; [|done]. apply replace_hit; [done..|]. intros j Hj. apply Hf. lia. Qed.
Example C55_replace_first_ex : replace (ss_new ($"banana")) ($"an") ($"o") = Ok (ss_new ($"boana"), true).
Proof. by vm_compute. Qed.
Print Assumptions C55_replace_first.
Theorem C55_replace_nothing o old new :
  short (so_value o) -> (forall j, ~ occurs (so_value o) old j) -> replace o old new = Ok (o, false).
Proof. apply replace_miss. Qed.
Example C55_replace_nothing_ex : replace (ss_new ($"banana")) ($"x") ($"o") = Ok (ss_new ($"banana"), false).
Proof. by vm_compute. Qed.
Print Assumptions C55_replace_nothing.
(** Replacing by something shorter ends, and leaves no place of the old text. *)
Theorem C55_replace_all_shorter o old new fuel :
  (length new < length old)%nat -> short (so_value o) -> (length (so_value o) < fuel)%nat ->
  exists o' found, replace_all fuel o old new = Ok (o', found) /\ (forall j, ~ occurs (so_value o') old j) /\
    (found = true <-> exists j, occurs (so_value o) old j).
Proof.
  intros Hl Hs Hf. pose proof (replace_all_loop_ends old new fuel o false Hl Hs Hf) as H. unfold replace_all.
  destruct (replace_all_loop fuel o old new false) as [[o' f]| | |] eqn:E; [|done..]. exists o', f. split; [done|].
  apply replace_all_loop_spec in E as (H1 & _ & H2); [|lia|done]. split; [done|]. rewrite H2. split; [by intros [?|?]|auto].
Qed.
Example C55_replace_all_shorter_ex : replace_all 9 (ss_new ($"aaaab")) ($"aa") ($"a") = Ok (ss_new ($"ab"), true).
Proof. by vm_compute. Qed.
Print Assumptions C55_replace_all_shorter.
(** In general it does not end: each round looks at the whole text again. *)
Theorem C55_replace_all_ends_refuted v old : short v -> (exists j, occurs v old j) ->
  forall fuel, replace_all fuel (ss_new v) old old = Fuel.
Proof. intros Hs Ho fuel. by apply replace_all_loop_same. Qed.
Example C55_replace_all_ends_refuted_ex : short ($"banana") /\ occurs ($"banana") ($"an") 1.
Proof. split; [by vm_compute|]. by exists ($"b"), ($"ana"). Qed.
Print Assumptions C55_replace_all_ends_refuted.

(** Removing a character: exactly the one at the position. *)
Theorem C55_remove_char a c b : short (a ++ c :: b) ->
  exists o, remove_char_at (ss_new (a ++ c :: b)) (Z.of_nat (length a)) = Ok o /\ so_value o = a ++ b /\ so_size o = Z.of_nat (length (a ++ b)).
Proof.
  intros Hs. assert (str_len (a ++ c :: b) = Z.of_nat (length (a ++ c :: b))) as Hl by (apply str_len_short; unfold short in Hs; lia).
  destruct (remove_ok (ss_new (a ++ c :: b)) (Z.of_nat (length a))) as [Hr _]; [done| |].
  { cbn [ss_new so_size]. rewrite Hl, app_length. cbn [length]. lia. }
  rewrite Hr. eexists. split; [done|]. cbn [ss_new so_size so_value]. rewrite Hl. split.
  - rewrite Nat2Z.id, take_app. f_equal. replace (Z.to_nat (Z.of_nat (length a) + 1)) with (length a + 1)%nat by lia. rewrite drop_add_app by done. cbn [drop]. apply drop_0.
  - rewrite !app_length. cbn [length]. lia.
Qed.
Example C55_remove_char_ex : remove_char_at (ss_new ($"hello")) 1 = Ok (SStr 4 ($"hllo")).
Proof. by vm_compute. Qed.
Print Assumptions C55_remove_char.
Theorem C55_remove_outside v i : short v -> (i < 0 \/ Z.of_nat (length v) <= i)%Z ->
  remove_char_at (ss_new v) i = Throw "OutOfBoundsException" /\ char_at (ss_new v) i = Throw "OutOfBoundsException".
Proof.
  unfold short. intros Hs H. unfold remove_char_at, char_at. cbn [ss_new so_size]. rewrite str_len_short by lia.
  assert ((i <? 0) || (Z.of_nat (length v) <=? i) = true)%Z as ->; [|done]. destruct (Z.ltb_spec i 0); [done|]. destruct (Z.leb_spec (Z.of_nat (length v)) i); [done|lia].
Qed.
Print Assumptions C55_remove_outside.
Theorem C55_char_at a c b : short (a ++ c :: b) -> char_at (ss_new (a ++ c :: b)) (Z.of_nat (length a)) = Ok [c].
Proof.
  unfold short. intros Hs. unfold char_at. cbn [ss_new so_size so_value]. rewrite str_len_short by lia. rewrite app_length in Hs. cbn [length] in Hs.
  destruct (Z.ltb_spec (Z.of_nat (length a)) 0); [lia|]. destruct (Z.leb_spec (Z.of_nat (length (a ++ c :: b))) (Z.of_nat (length a))) as [H1|H1]; [rewrite app_length in H1; cbn in H1; lia|].
  cbn [orb]. rewrite substr3_ok by (rewrite ?app_length; lia). rewrite Nat2Z.id, drop_app. done.
Qed.
Print Assumptions C55_char_at.

(** Front, back and inside. *)
Theorem C55_starts_with o t : (Z.of_nat (length t) < 2 ^ 31)%Z ->
  exists r, starts_with o t = Ok r /\ (r = true <-> exists b, so_value o = t ++ b).
Proof. apply starts_with_iff. Qed.
Example C55_starts_with_ex : starts_with (ss_new ($"hello")) ($"he") = Ok true /\ starts_with (ss_new ($"he")) ($"hello") = Ok false.
Proof. by vm_compute. Qed.
Print Assumptions C55_starts_with.
Theorem C55_contains o t : short (so_value o) -> contains o t = true <-> exists a b, so_value o = a ++ t ++ b.
Proof.
  intros Hs. rewrite contains_spec by done. split.
  - intros (i & a & b & E & _). eauto.
  - intros (a & b & E). by exists (Z.of_nat (length a)), a, b.
Qed.
Example C55_contains_ex : contains (ss_new ($"hello")) ($"ell") = true /\ contains (ss_new ($"hello")) ($"elo") = false.
Proof. by vm_compute. Qed.
Print Assumptions C55_contains.
Theorem C55_ends_with_partial o t : short (so_value o) -> (length t <= length (so_value o))%nat ->
  exists r, ends_with o t = Ok r /\ (r = true <-> exists a, so_value o = a ++ t).
Proof. apply ends_with_iff. Qed.
Example C55_ends_with_partial_ex : ends_with (ss_new ($"hello")) ($"lo") = Ok true /\ ends_with (ss_new ($"hello")) ($"la") = Ok false.
Proof. by vm_compute. Qed.
Print Assumptions C55_ends_with_partial.
(** Missing above: a longer text. The question is then not answered but fails. *)
Theorem C55_ends_with_longer_refuted o t : short (so_value o) -> short t -> (length (so_value o) < length t)%nat ->
  ends_with o t = Throw "out_of_range" /\ ~ exists a, so_value o = a ++ t.
Proof. intros Hs Ht Hl. split; [by apply ends_with_longer|]. intros [a E]. rewrite E, app_length in Hl. lia. Qed.
Example C55_ends_with_longer_refuted_ex : ends_with (ss_new ($"lo")) ($"hello") = Throw "out_of_range".
Proof. by vm_compute. Qed.
Print Assumptions C55_ends_with_longer_refuted.
(** Positions. *)
Theorem C55_index_of o t start i : short (so_value o) -> (0 <= start < 2 ^ 31)%Z ->
  (index_of o t start = i <-> first_from (so_value o) t start i \/ i = (-1)%Z /\ forall j, (start <= j)%Z -> ~ occurs (so_value o) t j).
Proof.
  intros Hs Hp. unfold index_of. destruct (str_find_spec (so_value o) t start Hs Hp) as [[H1 H2]|[H1 H2]].
  - split.
    + intros <-. right. by rewrite H1.
    + intros [(G1 & G2 & G3)|[-> _]]; [|done]. by destruct (H2 i).
  - split; [by intros <-; left|]. destruct H2 as (H2 & H3 & H4). intros [(G1 & G2 & G3)|[-> G]].
    + destruct (Z.lt_trichotomy (str_find (so_value o) t start) i) as [L|[L|L]]; [|done|].
      * by destruct (G3 (str_find (so_value o) t start)).
      * by destruct (H4 i).
    + by destruct (G (str_find (so_value o) t start)).
Qed.
Example C55_index_of_ex : index_of (ss_new ($"banana")) ($"an") 2 = 3%Z /\ index_of (ss_new ($"banana")) ($"an") 4 = (-1)%Z.
Proof. by vm_compute. Qed.
Print Assumptions C55_index_of.
Theorem C55_last_index_of o t fuel : short (so_value o) -> (length (so_value o) + 1 < fuel)%nat ->
  exists i, last_index_of fuel o t = Ok i /\ (last_place (so_value o) t i \/ i = (-1)%Z /\ forall j, ~ occurs (so_value o) t j).
Proof.
  intros Hs Hf. unfold last_index_of. destruct (last_index_loop_spec t o fuel (-1)) as (r & Hr & H1 & H2); [done|lia|by left|lia|].
  exists r. split; [done|]. destruct H1 as [->|H1].
  - right. split; [done|]. intros j Hj. apply (H2 j); [|done]. apply occurs_nonneg in Hj. lia.
  - by left.
Qed.
Example C55_last_index_of_ex : last_index_of 9 (ss_new ($"banana")) ($"an") = Ok 3%Z /\ last_index_of 9 (ss_new ($"banana")) ($"x") = Ok (-1)%Z.
Proof. by vm_compute. Qed.
Print Assumptions C55_last_index_of.
(** Parts. *)
Theorem C55_sub_string a b c o : so_value o = a ++ b ++ c -> short (so_value o) ->
  sub_string_n o (Z.of_nat (length a)) (Z.of_nat (length b)) = Ok b /\ sub_string o (Z.of_nat (length a)) = Ok (b ++ c).
Proof.
  intros E Hs. rewrite E in Hs. pose proof (short_app _ _ _ Hs) as Hl. unfold sub_string, sub_string_n. rewrite E.
  rewrite substr3_ok by (rewrite ?app_length; lia). rewrite substr2_ok by (rewrite ?app_length; lia). by rewrite !Nat2Z.id, drop_app, take_app.
Qed.
Example C55_sub_string_ex : sub_string_n (ss_new ($"hello")) 1 3 = Ok ($"ell").
Proof. by vm_compute. Qed.
Print Assumptions C55_sub_string.
Theorem C55_cut a b o : so_value o = a ++ b -> so_size o = Z.of_nat (length (so_value o)) -> short (so_value o) ->
  (b <> [] -> cut_left o (Z.of_nat (length a)) = Ok (SStr (Z.of_nat (length b)) b)) /\
  cut_right o (Z.of_nat (length b)) = Ok (SStr (Z.of_nat (length a)) a).
Proof.
  unfold short. intros E Hz Hs. rewrite E, app_length in Hs. rewrite E, app_length in Hz. split.
  - intros Hb. assert (0 < length b)%nat by (destruct b; [done|cbn; lia]). unfold cut_left. rewrite Hz, E.
    destruct (Z.ltb_spec (Z.of_nat (length a)) 0); [lia|]. destruct (Z.leb_spec (Z.of_nat (length a + length b)) (Z.of_nat (length a))); [lia|]. cbn [orb].
    rewrite substr2_ok by (rewrite ?app_length; lia). cbn [rbind]. rewrite Nat2Z.id, drop_app. unfold ss_new. by rewrite str_len_short by lia.
  - unfold cut_right. rewrite E. rewrite str_len_short by (rewrite app_length; lia). rewrite checked32 by (rewrite app_length; lia). cbn [rbind].
    rewrite substr3_ok by (rewrite ?app_length; lia). cbn [rbind]. change (Z.to_nat 0) with 0%nat. rewrite drop_0.
    replace (Z.to_nat (Z.of_nat (length (a ++ b)) - Z.of_nat (length b))) with (length a) by (rewrite app_length; lia). rewrite take_app.
    unfold ss_new. by rewrite str_len_short by lia.
Qed.
Example C55_cut_ex : cut_left (ss_new ($"hello")) 2 = Ok (ss_new ($"llo")) /\ cut_right (ss_new ($"hello")) 2 = Ok (ss_new ($"hel")).
Proof. by vm_compute. Qed.
Print Assumptions C55_cut.
(** A range of positions gives the empty text whenever it lies inside the string and is not all of it. *)
Theorem C55_range_refuted o first last : (0 <= first)%Z -> (last < so_size o)%Z -> (so_size o < 2 ^ 31)%Z -> (0 <= last)%Z -> (first < 2 ^ 31)%Z ->
  ss_range o first last = Ok [].
Proof.
  intros H1 H2 H3 H4 H5. unfold ss_range. rewrite checked32 by lia. cbn [rbind]. destruct (Z.leb_spec (so_size o) (last - first)); [lia|]. by rewrite andb_false_r.
Qed.
Example C55_range_refuted_ex : ss_range (ss_new ($"hello")) 1 3 = Ok [].
Proof. by vm_compute. Qed.
Print Assumptions C55_range_refuted.
(** Trimming removes the blanks at both ends and nothing else. *)
Theorem C55_trim o : trimmed ($" ") (so_value o) (so_value (ss_trim o)).
Proof.
  cbn [ss_trim ss_new so_value]. set (t := $" "). set (s := so_value o). pose proof (C46_trim_exact t (reverse s)) as (l & r & E & Hl & Hr & H1 & H2).
  assert (trim_right t (trim_left t s) = reverse (trim t (reverse s))) as ->.
  { unfold trim, trim_right. by rewrite reverse_involutive. }
  set (w := trim t (reverse s)) in *. exists (reverse r), (reverse l). split_and!.
  - rewrite <- (reverse_involutive s), E. by rewrite !reverse_app, app_assoc.
  - by apply Forall_reverse.
  - by apply Forall_reverse.
  - intros c w' E'. apply (H2 c (reverse w')). by rewrite <- (reverse_involutive w), E', reverse_cons.
  - intros c w' E'. apply (H1 c (reverse w')). by rewrite <- (reverse_involutive w), E', reverse_snoc.
Qed.
Example C55_trim_ex : ss_trim (ss_new ($"  a b ")) = ss_new ($"a b").
Proof. by vm_compute. Qed.
Print Assumptions C55_trim.

(** ** C61: taking a string to pieces *)
Theorem C61_split_cuts v sep fuel : short v -> short sep -> sep <> [] -> (length v + 1 < fuel)%nat ->
  exists ps, siter_all fuel (ss_new v) (siter_new sep) = Ok ps /\ cut sep v ps.
Proof.
  intros Hs Hsep Hne Hf. assert (0 < length sep)%nat by (destruct sep; [done|cbn; lia]).
  unfold siter_new. unfold short in *. rewrite str_len_short by lia.
  destruct (siter_all_cut sep v fuel (-1) 0) as (ps & H1 & H2); [done|lia|lia|lia|]. exists ps. split; [|by rewrite drop_0 in H2].
  by replace (Z.of_nat (length sep) * -1)%Z with (0 - Z.of_nat (length sep))%Z by lia.
Qed.
Example C61_split_cuts_ex : siter_all 20 (ss_new ($"a,,bc,")) (siter_new ($",")) = Ok [$"a"; $""; $"bc"; $""].
Proof. by vm_compute. Qed.
Print Assumptions C61_split_cuts.
(** There is only one way to cut; joining the pieces gives the text back and no piece contains the separator. *)
Theorem C61_join v sep fuel ps : short v -> short sep -> sep <> [] -> (length v + 1 < fuel)%nat ->
  siter_all fuel (ss_new v) (siter_new sep) = Ok ps ->
  join sep ps = v /\ Forall (fun p => ~ exists a b, p = a ++ sep ++ b) ps /\ forall qs, cut sep v qs -> qs = ps.
Proof.
  intros Hs Hsep Hne Hf H. destruct (C61_split_cuts v sep fuel Hs Hsep Hne Hf) as (ps' & H1 & H2). rewrite H1 in H. injection H as ->.
  split_and!; [by eapply cut_join| |].
  - eapply Forall_impl; [by eapply cut_pieces|]. intros p Hp (a & b & E). apply (Hp (Z.of_nat (length a))). by exists a, b.
  - intros qs Hq. by eapply cut_unique.
Qed.
Print Assumptions C61_join.
(** Pieces that do not touch the separator come back. *)
Theorem C61_split_of_join c ps fuel : Forall (fun p => c ∉ p) ps -> ps <> [] -> short (join [c] ps) -> (length (join [c] ps) + 1 < fuel)%nat ->
  siter_all fuel (ss_new (join [c] ps)) (siter_new [c]) = Ok ps.
Proof.
  intros Hc Hne Hs Hf. destruct (C61_split_cuts (join [c] ps) [c] fuel) as (qs & H1 & H2); [done|by vm_compute|done|done|].
  rewrite H1. f_equal. eapply cut_unique; [done|]. clear -Hc Hne.
  assert (forall p r j, c ∉ p -> (0 <= j < Z.of_nat (length p))%Z -> ~ occurs (p ++ r) [c] j) as Hno.
  { intros p r j Hp Hj (a & b & E & Ha). apply Hp. apply elem_of_list_lookup. exists (length a).
    assert ((p ++ r) !! length a = Some c) as Hl by (rewrite E; change ([c] ++ b) with (c :: b); by rewrite list_lookup_middle).
    by rewrite lookup_app_l in Hl by lia. }
  induction Hc as [|p ps Hp Hc IH]; [done|]. destruct ps as [|q ps].
  - cbn [join]. apply cut_last. intros i Hi. pose proof (occurs_nonneg _ _ _ Hi) as Hb. cbn in Hb. apply (Hno p [] i Hp); [lia|]. by rewrite app_nil_r.
  - change (join [c] (p :: q :: ps)) with (p ++ [c] ++ join [c] (q :: ps)). apply cut_more; [|by apply IH].
    split_and!; [lia|apply occurs_app_at|]. intros j Hj. by apply Hno.
Qed.
Print Assumptions C61_split_of_join.
(** With an empty separator it does not end. *)
Theorem C61_empty_separator_refuted : forall fuel, siter_all fuel (ss_new ($"ab")) (siter_new []) = Fuel.
Proof.
  assert (forall fuel c, siter_all fuel (ss_new ($"ab")) (SIter c 0 []) = Fuel) as H.
  { induction fuel as [|fuel IH]; [done|]. intros c. cbn [siter_all]. change (siter_has_next (ss_new ($"ab")) (SIter c 0 [])) with true. cbn match.
    assert (siter_step (ss_new ($"ab")) (SIter c 0 []) = Ok ([], SIter 0 0 [])) as -> by (by vm_compute). cbn [rbind snd]. by rewrite IH. }
  intros fuel. apply H.
Qed.
Print Assumptions C61_empty_separator_refuted.
(** After [<<] the iteration stops early: the text added is not seen. *)
Theorem C61_after_append_refuted : exists o ps, srun [SAppend ($",c,d")] (ss_new ($"a,b")) = Ok o /\ so_value o = $"a,b,c,d" /\
  siter_all 20 o (siter_new ($",")) = Ok ps /\ join ($",") ps <> so_value o.
Proof. exists (SStr 3 ($"a,b,c,d")), [$"a"; $"b"]. by vm_compute. Qed.
Print Assumptions C61_after_append_refuted.
(** Every character in order; but an empty text follows. *)
Theorem C61_characters_partial v fuel : short v -> (length v + 1 < fuel)%nat ->
  characters fuel v = Ok (map (fun c => [c]) v ++ [[]]).
Proof.
  intros Hs Hf. unfold characters. rewrite citer_all_spec by (done || lia). destruct (Z.ltb_spec (-1) (Z.of_nat (length v))); [|lia].
  change (Z.to_nat (-1 + 1)) with 0%nat. by rewrite drop_0.
Qed.
Example C61_characters_partial_ex : characters 9 ($"abc") = Ok [$"a"; $"b"; $"c"; $""].
Proof. by vm_compute. Qed.
Print Assumptions C61_characters_partial.
Theorem C61_characters_refuted v fuel : short v -> (length v + 1 < fuel)%nat -> characters fuel v <> Ok (map (fun c => [c]) v).
Proof. intros Hs Hf. rewrite C61_characters_partial by done. intros E. assert (length (map (fun c => [c]) v ++ [[]]) = length (map (fun c => [c]) v)) as E1 by congruence. rewrite app_length in E1. cbn [length] in E1. lia. Qed.
Print Assumptions C61_characters_refuted.

(** ** C62: padding *)
Theorem C62_pad left s n c : (0 <= n < 2 ^ 63)%Z ->
  exists fill, str_pad left s n [c] = Ok (if left : bool then fill ++ s else s ++ fill) /\ Forall (fun x => x = c) fill /\
    (Z.of_nat (length fill + length s) = Z.max n (Z.of_nat (length s)))%Z.
Proof.
  intros Hn. unfold str_pad. rewrite ulong_pos by lia. destruct (Z.ltb_spec (2 ^ 63 - 1) n); [lia|].
  destruct (Z.ltb_spec (Z.of_nat (length s)) n) as [Hl|Hl].
  - exists (List.repeat c (Z.to_nat (n - Z.of_nat (length s)))). split_and!; [by destruct left| |rewrite repeat_length; lia].
    apply List.Forall_forall. intros x Hx. by apply repeat_spec in Hx.
  - exists []. split_and!; [destruct left; by rewrite ?app_nil_r|constructor|cbn; lia].
Qed.
Example C62_pad_ex : str_pad true ($"abc") 5 ($".") = Ok ($"..abc") /\ str_pad false ($"abc") 5 ($".") = Ok ($"abc..") /\ str_pad true ($"abc") 2 ($".") = Ok ($"abc").
Proof. by vm_compute. Qed.
Print Assumptions C62_pad.
(** A pattern that is not one character, and a negative length, are refused. *)
Theorem C62_pad_refused left s n p : (- 2 ^ 63 <= n)%Z -> (length p <> 1%nat \/ n < 0)%Z -> exists e, str_pad left s n p = Throw e.
Proof.
  intros Hn H. unfold str_pad. destruct p as [|c [|d p]]; [eauto| |eauto]. destruct H as [H|H]; [done|].
  pose proof (ulong_neg n (conj Hn H)). destruct (Z.ltb_spec (2 ^ 63 - 1) (ulong n)); [eauto|lia].
Qed.
Example C62_pad_refused_ex : str_pad true ($"abc") (-5) ($".") = Throw "length_error" /\ str_pad true ($"abc") 5 ($"..") = Throw "SizeException".
Proof. by vm_compute. Qed.
Print Assumptions C62_pad_refused.
