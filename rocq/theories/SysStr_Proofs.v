(** Proofs about library strings (C55, C61). *)
From Verif Require Import Base Base_Proofs Text_Model Value_Model SysStr_Model SysStr_Spec.

Lemma is_prefix_iff t : forall s, is_prefix t s = true <-> exists b, s = t ++ b.
Proof.
  induction t as [|c t IH]; intros s; cbn [is_prefix].
  - split; [eauto|done].
  - destruct s as [|d s]; [split; [done|by intros [? ?]]|]. rewrite andb_true_iff, bool_decide_eq_true, IH. split.
    + intros [-> [b ->]]. by exists b.
    + intros [b [= -> ->]]. eauto.
Qed.
Lemma occurs_0 s t : occurs s t 0 <-> exists b, s = t ++ b.
Proof.
  split.
  - intros (a & b & -> & H). destruct a; [by exists b|cbn in H; lia].
  - intros [b ->]. by exists [], b.
Qed.
Lemma occurs_nonneg s t i : occurs s t i -> (0 <= i /\ i + Z.of_nat (length t) <= Z.of_nat (length s))%Z.
Proof. intros (a & b & -> & <-). rewrite !app_length. lia. Qed.
Lemma occurs_cons c s t i : (0 <= i)%Z -> occurs (c :: s) t (i + 1) <-> occurs s t i.
Proof.
  intros Hi. split.
  - intros (a & b & E & H). destruct a as [|x a]; [cbn in H; lia|]. injection E as -> ->. exists a, b. split; [done|]. cbn in H. lia.
  - intros (a & b & -> & <-). exists (c :: a), b. split; [done|]. cbn. lia.
Qed.
Lemma find_from_spec t s : forall i,
  match find_from t i s with
  | Some j => first_from s t 0 (j - i)
  | None => forall j, ~ occurs s t j
  end.
Proof.
  induction s as [|c s IH]; intros i; cbn [find_from].
  - destruct (is_prefix t []) eqn:E.
    + apply is_prefix_iff in E. replace (i - i)%Z with 0%Z by lia. split_and!; [lia|by apply occurs_0|intros; lia].
    + intros j Hj. pose proof (occurs_nonneg _ _ _ Hj) as Hl. cbn in Hl. assert (j = 0%Z) as -> by lia. apply occurs_0, is_prefix_iff in Hj. congruence.
  - destruct (is_prefix t (c :: s)) eqn:E.
    + apply is_prefix_iff in E. replace (i - i)%Z with 0%Z by lia. split_and!; [lia|by apply occurs_0|intros; lia].
    + assert (~ occurs (c :: s) t 0) as H0 by (intros H; apply occurs_0, is_prefix_iff in H; congruence).
      specialize (IH (i + 1)%Z). destruct (find_from t (i + 1) s) as [j|].
      * destruct IH as (H1 & H2 & H3). split_and!; [lia| |].
        -- replace (j - i)%Z with ((j - (i + 1)) + 1)%Z by lia. by apply occurs_cons.
        -- intros k Hk Ho. destruct (decide (k = 0%Z)) as [->|]; [done|]. apply (H3 (k - 1)%Z); [lia|]. apply (occurs_cons c); [lia|]. by replace (k - 1 + 1)%Z with k by lia.
      * intros k Ho. destruct (decide (k = 0%Z)) as [->|]; [done|]. apply (IH (k - 1)%Z). pose proof (occurs_nonneg _ _ _ Ho). apply (occurs_cons c); [lia|]. by replace (k - 1 + 1)%Z with k by lia.
Qed.
Lemma occurs_drop s t p k : (p <= length s)%nat -> (0 <= k)%Z -> occurs (drop p s) t k <-> occurs s t (k + Z.of_nat p).
Proof.
  intros Hp Hk. split.
  - intros (a & b & E & <-). exists (take p s ++ a), b. split; [rewrite <- app_assoc, <- E; by rewrite take_drop|]. rewrite app_length, take_length. lia.
  - intros (a & b & E & H). exists (drop p a), b. split; [|rewrite drop_length; lia]. rewrite E. rewrite drop_app_le by lia. done.
Qed.
Lemma wrap32_small z : (- 2 ^ 31 <= z < 2 ^ 31)%Z -> wrap 32 z = z.
Proof. intros H. unfold wrap. change (32 - 1)%Z with 31%Z. rewrite Z.mod_small by lia. lia. Qed.
Lemma ulong_pos z : (0 <= z < 2 ^ 64)%Z -> ulong z = z.
Proof. intros H. unfold ulong. by apply Z.mod_small. Qed.
Lemma ulong_neg z : (- 2 ^ 63 <= z < 0)%Z -> (2 ^ 63 <= ulong z)%Z.
Proof. intros H. unfold ulong. replace z with (z + 2 ^ 64 + (-1) * 2 ^ 64)%Z by lia. rewrite Z.mod_add by lia. rewrite Z.mod_small by lia. lia. Qed.
Lemma str_len_short s : (Z.of_nat (length s) < 2 ^ 31)%Z -> str_len s = Z.of_nat (length s).
Proof. intros H. unfold str_len. apply wrap32_small. lia. Qed.
Lemma str_find_spec s t pos : short s -> (0 <= pos < 2 ^ 31)%Z ->
  (str_find s t pos = (-1)%Z /\ forall k, (pos <= k)%Z -> ~ occurs s t k) \/ ((0 <= str_find s t pos)%Z /\ first_from s t pos (str_find s t pos)).
Proof.
  unfold short. intros Hs Hp. unfold str_find, cpp_find. rewrite ulong_pos by lia. destruct (Z.ltb_spec (Z.of_nat (length s)) pos) as [Hl|Hl].
  - left. split; [done|]. intros k Hk Ho. pose proof (occurs_nonneg _ _ _ Ho). lia.
  - pose proof (find_from_spec t (drop (Z.to_nat pos) s) pos) as Hf. destruct (find_from t pos (drop (Z.to_nat pos) s)) as [j|].
    + right. destruct Hf as (H1 & H2 & H3). apply occurs_drop in H2; [|lia|lia]. replace (j - pos + Z.of_nat (Z.to_nat pos))%Z with j in H2 by lia.
      pose proof (occurs_nonneg _ _ _ H2) as Hn. rewrite wrap32_small by lia. split; [lia|]. split_and!; [lia|done|].
      intros k Hk Ho. apply (H3 (k - pos)%Z); [lia|]. apply occurs_drop; [lia|lia|]. by replace (k - pos + Z.of_nat (Z.to_nat pos))%Z with k by lia.
    + left. split; [done|]. intros k Hk Ho. apply (Hf (k - pos)%Z). apply occurs_drop; [lia|lia|]. by replace (k - pos + Z.of_nat (Z.to_nat pos))%Z with k by lia.
Qed.
Lemma str_find_neg s t pos : short s -> (- 2 ^ 31 <= pos < 0)%Z -> str_find s t pos = (-1)%Z.
Proof.
  unfold short. intros Hs Hp. unfold str_find, cpp_find. pose proof (ulong_neg pos). destruct (Z.ltb_spec (Z.of_nat (length s)) (ulong pos)); [done|lia].
Qed.
Lemma substr2_ok s i : (0 <= i <= Z.of_nat (length s))%Z -> (i < 2 ^ 64)%Z -> substr2 s i = Ok (drop (Z.to_nat i) s).
Proof.
  intros H Hl. unfold substr2, cpp_substr. rewrite ulong_pos by lia. destruct (Z.ltb_spec (Z.of_nat (length s)) i); [lia|].
  f_equal. apply take_ge. rewrite drop_length. lia.
Qed.
Lemma substr2_bad s i : (Z.of_nat (length s) < i < 2 ^ 64 \/ - 2 ^ 63 <= i < 0 /\ Z.of_nat (length s) < 2 ^ 63)%Z -> substr2 s i = Throw "out_of_range".
Proof.
  intros H. unfold substr2, cpp_substr. assert (Z.of_nat (length s) < ulong i)%Z as Hl.
  { destruct H as [H|[H H2]]; [rewrite ulong_pos by lia; lia|]. pose proof (ulong_neg i H). lia. }
  destruct (Z.ltb_spec (Z.of_nat (length s)) (ulong i)); [done|lia].
Qed.
Lemma substr3_ok s i n : (0 <= i <= Z.of_nat (length s))%Z -> (i < 2 ^ 64)%Z -> (0 <= n < 2 ^ 64)%Z ->
  substr3 s i n = Ok (take (Z.to_nat n) (drop (Z.to_nat i) s)).
Proof.
  intros H Hl Hn. unfold substr3, cpp_substr. rewrite !ulong_pos by lia. destruct (Z.ltb_spec (Z.of_nat (length s)) i); [lia|]. f_equal.
  destruct (Z.leb_spec n (Z.of_nat (length s))).
  - by rewrite Z.min_l by lia.
  - rewrite Z.min_r by lia. rewrite !take_ge; [done| |]; rewrite drop_length; lia.
Qed.
Lemma checked32 z : (- 2 ^ 31 <= z < 2 ^ 31)%Z -> checked 32 z = Ok z.
Proof. intros H. unfold checked, in_range. change (32 - 1)%Z with 31%Z. destruct (Z.leb_spec (- 2 ^ 31) z); [|lia]. destruct (Z.ltb_spec z (2 ^ 31)); [done|lia]. Qed.

Lemma short_app a t b : short (a ++ t ++ b) -> (Z.of_nat (length a) + Z.of_nat (length t) + Z.of_nat (length b) < 2 ^ 31 - 1)%Z.
Proof. unfold short. rewrite !app_length. lia. Qed.
Lemma occurs_app_at a t b : occurs (a ++ t ++ b) t (Z.of_nat (length a)).
Proof. by exists a, b. Qed.
(** The place that is found is the given one. *)
Lemma find_given a t b : short (a ++ t ++ b) -> (forall j, (0 <= j < Z.of_nat (length a))%Z -> ~ occurs (a ++ t ++ b) t j) ->
  str_find (a ++ t ++ b) t 0 = Z.of_nat (length a).
Proof.
  intros Hs Hf. destruct (str_find_spec (a ++ t ++ b) t 0 Hs) as [[_ H]|[Hn (H1 & H2 & H3)]]; [lia| |].
  - destruct (H (Z.of_nat (length a))); [lia|apply occurs_app_at].
  - destruct (Z.lt_trichotomy (str_find (a ++ t ++ b) t 0) (Z.of_nat (length a))) as [H|[H|H]]; [|done|].
    + by destruct (Hf _ (conj Hn H)).
    + destruct (H3 (Z.of_nat (length a))); [lia|apply occurs_app_at].
Qed.
Lemma find_none s t : short s -> (forall j, ~ occurs s t j) -> str_find s t 0 = (-1)%Z.
Proof. intros Hs Hn. destruct (str_find_spec s t 0 Hs) as [[H _]|[_ (_ & H & _)]]; [lia|done|]. by destruct (Hn _ H). Qed.
Lemma find_some s t : short s -> (0 <= str_find s t 0)%Z ->
  exists a b, s = a ++ t ++ b /\ Z.of_nat (length a) = str_find s t 0 /\ forall j, (0 <= j < Z.of_nat (length a))%Z -> ~ occurs s t j.
Proof.
  intros Hs H0. destruct (str_find_spec s t 0 Hs) as [[H _]|[_ (_ & (a & b & E & Ha) & H)]]; [lia|lia|]. exists a, b. rewrite Ha. split_and!; auto.
Qed.
Lemma contains_spec o t : short (so_value o) -> contains o t = true <-> exists i, occurs (so_value o) t i.
Proof.
  intros Hs. unfold contains. rewrite Z.leb_le. split.
  - intros H. destruct (find_some _ _ Hs H) as (a & b & E & _). exists (Z.of_nat (length a)). rewrite E. apply occurs_app_at.
  - intros [i Hi]. destruct (str_find_spec _ t 0 Hs) as [[_ H]|[H _]]; [lia| |done]. destruct (H i); [|done]. by apply occurs_nonneg in Hi as [? _].
Qed.
Lemma replace_hit o a old b new : so_value o = a ++ old ++ b -> short (so_value o) ->
  (forall j, (0 <= j < Z.of_nat (length a))%Z -> ~ occurs (so_value o) old j) ->
  replace o old new = Ok (ss_new (a ++ new ++ b), true).
Proof.
  intros E Hs Hf. unfold replace. rewrite E in *. rewrite (find_given _ _ _ Hs Hf). pose proof (short_app _ _ _ Hs) as Hl.
  destruct (Z.leb_spec 0 (Z.of_nat (length a))); [|lia].
  rewrite substr3_ok by (rewrite ?app_length; lia). cbn [rbind].
  rewrite str_len_short by lia. rewrite checked32 by lia. cbn [rbind].
  rewrite substr2_ok by (rewrite ?app_length; lia). cbn [rbind].
  replace (Z.to_nat (Z.of_nat (length a) + Z.of_nat (length old))) with (length a + length old)%nat by lia.
  rewrite Nat2Z.id. change (Z.to_nat 0) with 0%nat. rewrite drop_0, take_app. rewrite drop_add_app, drop_app by done. done.
Qed.
Lemma replace_miss o old new : short (so_value o) -> (forall j, ~ occurs (so_value o) old j) -> replace o old new = Ok (o, false).
Proof. intros Hs Hn. unfold replace. rewrite find_none by done. done. Qed.
(** Either way. *)
Lemma replace_cases o old new : short (so_value o) ->
  ((forall j, ~ occurs (so_value o) old j) /\ replace o old new = Ok (o, false)) \/
  exists a b, so_value o = a ++ old ++ b /\ (forall j, (0 <= j < Z.of_nat (length a))%Z -> ~ occurs (so_value o) old j) /\
    replace o old new = Ok (ss_new (a ++ new ++ b), true).
Proof.
  intros Hs. destruct (decide (0 <= str_find (so_value o) old 0)%Z) as [H|H].
  - right. destruct (find_some _ _ Hs H) as (a & b & E & _ & Hf). exists a, b. split_and!; [done..|]. by apply replace_hit.
  - left. destruct (str_find_spec (so_value o) old 0 Hs) as [[_ Hn]|[? _]]; [lia| |lia].
    assert (forall j, ~ occurs (so_value o) old j) as Hn' by (intros j Hj; apply (Hn j); [by apply occurs_nonneg in Hj as [? _]|done]).
    split; [done|by apply replace_miss].
Qed.

(** ** Replacing everywhere *)
(** [s'] comes from [s] by replacing the first place of [old], again and again. *)
Lemma replace_all_loop_spec old new fuel : forall o found o' f',
  replace_all_loop fuel o old new found = Ok (o', f') -> (length new <= length old)%nat -> short (so_value o) ->
  (forall j, ~ occurs (so_value o') old j) /\ short (so_value o') /\ (f' = true <-> found = true \/ exists j, occurs (so_value o) old j).
Proof.
  induction fuel as [|fuel IH]; [done|]. intros o found o' f' H Hl Hs. cbn [replace_all_loop] in H.
  destruct (replace_cases o old new Hs) as [[Hn Hr]|(a & b & E & Hf & Hr)]; rewrite Hr in H; cbn [rbind snd fst] in H.
  - injection H as <- <-. split_and!; [done|done|]. split; [by left|]. intros [?|[j ?]]; [done|by destruct (Hn j)].
  - apply IH in H as (H1 & H2 & H3); [|done|].
    + split_and!; [done|done|]. split; [|intros _; tauto]. intros _. right. exists (Z.of_nat (length a)). rewrite E. apply occurs_app_at.
    + unfold short in *. cbn [ss_new so_value]. rewrite E in Hs. rewrite !app_length in *. lia.
Qed.
Lemma replace_all_loop_ends old new fuel : forall o found,
  (length new < length old)%nat -> short (so_value o) -> (length (so_value o) < fuel)%nat -> is_ok (replace_all_loop fuel o old new found).
Proof.
  induction fuel as [|fuel IH]; [lia|]. intros o found Hl Hs Hfu. cbn [replace_all_loop].
  destruct (replace_cases o old new Hs) as [[Hn Hr]|(a & b & E & Hf & Hr)]; rewrite Hr; cbn [rbind snd fst]; [done|].
  rewrite E in Hs, Hfu. rewrite !app_length in Hfu.
  apply IH; [done| |]; cbn [ss_new so_value]; unfold short in *; rewrite !app_length in *; lia.
Qed.
Lemma replace_all_loop_same old fuel : forall v found, short v -> (exists j, occurs v old j) ->
  replace_all_loop fuel (ss_new v) old old found = Fuel.
Proof.
  induction fuel as [|fuel IH]; [done|]. intros v found Hs [j Hj]. cbn [replace_all_loop].
  destruct (replace_cases (ss_new v) old old Hs) as [[Hn Hr]|(a & b & E & Hf & Hr)]; rewrite Hr; cbn [rbind snd fst].
  - by destruct (Hn j).
  - cbn [ss_new so_value] in E. rewrite <- E. apply IH; eauto.
Qed.

(** ** The length *)
Definition counted (o : sstr) : Prop := so_size o = str_len (so_value o).
Lemma wrap32_pos_le z : (0 <= z)%Z -> (wrap 32 z <= z)%Z.
Proof.
  intros H. unfold wrap. change (32 - 1)%Z with 31%Z. pose proof (Z.mod_le (z + 2 ^ 31) (2 ^ 32)). lia.
Qed.
Lemma wrap32_pred z : (0 < wrap 32 z)%Z -> wrap 32 (z - 1) = (wrap 32 z - 1)%Z.
Proof.
  unfold wrap. change (32 - 1)%Z with 31%Z. intros H.
  pose proof (Z.mod_pos_bound (z + 2 ^ 31) (2 ^ 32)) as Hb. replace (z - 1 + 2 ^ 31)%Z with ((z + 2 ^ 31) + (-1))%Z by lia.
  rewrite <- Zplus_mod_idemp_l. rewrite (Z.mod_small ((z + 2 ^ 31) mod 2 ^ 32 + -1)) by lia. lia.
Qed.
Lemma wrap32_bound z : (- 2 ^ 31 <= wrap 32 z < 2 ^ 31)%Z.
Proof. unfold wrap. change (32 - 1)%Z with 31%Z. pose proof (Z.mod_pos_bound (z + 2 ^ 31) (2 ^ 32)). lia. Qed.
Lemma remove_ok o i : counted o -> (0 <= i < so_size o)%Z ->
  remove_char_at o i = Ok (SStr (so_size o - 1) (take (Z.to_nat i) (so_value o) ++ drop (Z.to_nat (i + 1)) (so_value o))) /\
  (Z.to_nat i < length (so_value o))%nat.
Proof.
  unfold counted. intros Hc Hi. pose proof (wrap32_bound (Z.of_nat (length (so_value o)))) as Hb.
  assert (so_size o <= Z.of_nat (length (so_value o)))%Z as Hle by (rewrite Hc; apply wrap32_pos_le; lia).
  unfold str_len in Hc. unfold remove_char_at. destruct (Z.ltb_spec i 0); [lia|]. destruct (Z.leb_spec (so_size o) i); [lia|]. cbn [orb].
  rewrite substr3_ok by lia. cbn [rbind]. rewrite substr2_ok by lia. cbn [rbind]. split; [done|lia].
Qed.
Lemma remove_counted o i o' : counted o -> remove_char_at o i = Ok o' -> counted o'.
Proof.
  intros Hc H. destruct (decide (0 <= i < so_size o)%Z) as [Hi|Hi].
  - destruct (remove_ok o i Hc Hi) as [Hr Hl]. rewrite Hr in H. injection H as <-. unfold counted in *. cbn [so_size so_value].
    rewrite Hc. unfold str_len. rewrite app_length, take_length, drop_length.
    replace (Z.of_nat (Z.to_nat i `min` length (so_value o) + (length (so_value o) - Z.to_nat (i + 1)))) with (Z.of_nat (length (so_value o)) - 1)%Z by lia.
    symmetry. apply wrap32_pred. unfold str_len in Hc. lia.
  - unfold remove_char_at in H. destruct (Z.ltb_spec i 0); [done|]. destruct (Z.leb_spec (so_size o) i); [done|lia].
Qed.
Lemma replace_counted o a b o' f : counted o -> replace o a b = Ok (o', f) -> counted o'.
Proof.
  unfold replace. intros Hc H. destruct (0 <=? _)%Z; [|by injection H as <- <-].
  destruct (substr3 _ _ _); cbn [rbind] in H; try done. destruct (checked _ _); cbn [rbind] in H; try done.
  destruct (substr2 _ _); cbn [rbind] in H; try done. by injection H as <- <-.
Qed.
Lemma replace_all_counted fuel : forall o a b f o' f', counted o -> replace_all_loop fuel o a b f = Ok (o', f') -> counted o'.
Proof.
  induction fuel as [|fuel IH]; [done|]. intros o a b f o' f' Hc H. cbn [replace_all_loop] in H.
  destruct (replace o a b) as [[o1 f1]| | |] eqn:E; cbn [rbind fst snd] in H; try done.
  apply replace_counted in E; [|done]. destruct f1; [by eapply IH|by injection H as <- <-].
Qed.
Definition no_append (op : sop) : Prop := match op with SAppend _ => False | _ => True end.
Lemma sstep_counted op o o' : no_append op -> counted o -> sstep op o = Ok o' -> counted o'.
Proof.
  intros Hn Hc H. destruct op; cbn [sstep no_append] in *; try done; try (by injection H as <-).
  - destruct (replace o old new) as [[o1 f]| | |] eqn:E; cbn in H; try done; injection H as <-; [by eapply replace_counted|done].
  - destruct (replace_all fuel o old new) as [[o1 f]| | |] eqn:E; cbn in H; try done; injection H as <-. by eapply replace_all_counted.
  - destruct (remove_char_at o i) eqn:E; cbn in H; try done; injection H as <-; [by eapply remove_counted|done].
  - unfold cut_left in H. destruct (_ || _); cbn [keep] in H; [by injection H as <-|].
    destruct (substr2 _ _); cbn in H; try done; by injection H as <-.
  - unfold cut_right in H. destruct (checked _ _); cbn in H; try done; [|by injection H as <-].
    destruct (substr3 _ _ _); cbn in H; try done; by injection H as <-.
Qed.
Lemma srun_counted ops : forall o o', Forall no_append ops -> counted o -> srun ops o = Ok o' -> counted o'.
Proof.
  induction ops as [|op ops IH]; intros o o' Hn Hc H; cbn [srun] in H; [by injection H as <-|].
  apply Forall_cons in Hn as [Hn1 Hn2]. destruct (sstep op o) eqn:E; cbn in H; try done. eapply IH; [done| |done]. by eapply sstep_counted.
Qed.

(** ** Front and back *)
Lemma starts_with_iff o t : (Z.of_nat (length t) < 2 ^ 31)%Z ->
  exists r, starts_with o t = Ok r /\ (r = true <-> exists b, so_value o = t ++ b).
Proof.
  intros Hl. unfold starts_with. rewrite str_len_short by done. rewrite substr3_ok by lia. cbn [rbind]. eexists. split; [done|].
  unfold str_eqb. rewrite bool_decide_eq_true. change (Z.to_nat 0) with 0%nat. rewrite drop_0, Nat2Z.id. split.
  - intros H. exists (drop (length t) (so_value o)). rewrite H at 1. by rewrite take_drop.
  - intros [b ->]. by rewrite take_app.
Qed.
Lemma ends_with_iff o t : short (so_value o) -> (length t <= length (so_value o))%nat ->
  exists r, ends_with o t = Ok r /\ (r = true <-> exists a, so_value o = a ++ t).
Proof.
  unfold short. intros Hs Hl. unfold ends_with. rewrite !str_len_short by lia. rewrite checked32 by lia. cbn [rbind]. rewrite substr2_ok by lia. cbn [rbind].
  eexists. split; [done|]. unfold str_eqb. rewrite bool_decide_eq_true. split.
  - intros H. exists (take (Z.to_nat (Z.of_nat (length (so_value o)) - Z.of_nat (length t))) (so_value o)). rewrite H at 2. by rewrite take_drop.
  - intros [a E]. rewrite E, app_length. replace (Z.to_nat _) with (length a) by lia. by rewrite drop_app.
Qed.
Lemma ends_with_longer o t : short (so_value o) -> short t -> (length (so_value o) < length t)%nat -> ends_with o t = Throw "out_of_range".
Proof.
  unfold short. intros Hs Ht Hl. unfold ends_with. rewrite !str_len_short by lia. rewrite checked32 by lia. cbn [rbind]. rewrite substr2_bad by lia. done.
Qed.

(** ** The last place *)
Lemma last_index_loop_spec t o fuel : forall i, short (so_value o) -> (-1 <= i <= Z.of_nat (length (so_value o)))%Z ->
  (i = (-1)%Z \/ occurs (so_value o) t i) -> (Z.of_nat (length (so_value o)) - i < Z.of_nat fuel)%Z ->
  exists r, last_index_loop fuel o t i = Ok r /\ (r = (-1)%Z \/ occurs (so_value o) t r) /\ (forall j, (r < j)%Z -> ~ occurs (so_value o) t j).
Proof.
  induction fuel as [|fuel IH]; intros i Hs Hi Ho Hf; [lia|]. cbn [last_index_loop]. unfold short in Hs. rewrite checked32 by lia. cbn [rbind]. unfold index_of.
  destruct (str_find_spec (so_value o) t (i + 1)) as [[H1 H2]|[H1 (H2 & H3 & H4)]]; [done|lia| |].
  - rewrite H1. exists i. split_and!; [done|done|]. intros j Hj. apply H2. lia.
  - destruct (Z.eqb_spec (str_find (so_value o) t (i + 1)) (-1)); [lia|]. apply IH; [done| |by right|lia].
    apply occurs_nonneg in H3. lia.
Qed.

(** ** Cutting at separators *)
Lemma siter_all_cut sep v fuel : forall c0 cur, short v -> (1 <= Z.of_nat (length sep) < 2 ^ 31 - 1)%Z ->
  (0 <= cur <= Z.of_nat (length v))%Z -> (Z.of_nat (length v) - cur + 1 < Z.of_nat fuel)%Z ->
  exists ps, siter_all fuel (ss_new v) (SIter c0 (cur - Z.of_nat (length sep)) sep) = Ok ps /\ cut sep (drop (Z.to_nat cur) v) ps.
Proof.
  induction fuel as [|fuel IH]; intros c0 cur Hs Hsep Hc Hf; [lia|].
  pose proof Hs as Hs'. unfold short in Hs'.
  cbn [siter_all]. unfold siter_has_next, siter_step. cbn [it_next it_sep ss_new so_size]. rewrite !str_len_short by lia.
  destruct (Z.ltb_spec (cur - Z.of_nat (length sep)) (Z.of_nat (length v))); [|lia].
  destruct (Z.leb_spec (Z.of_nat (length v)) (cur - Z.of_nat (length sep))); [lia|].
  replace (cur - Z.of_nat (length sep) + Z.of_nat (length sep))%Z with cur by lia. rewrite checked32 by lia. cbn [rbind].
  unfold index_of, sub_string, sub_string_n. change (so_value (ss_new v)) with v.
  destruct (str_find_spec v sep cur Hs) as [[H1 H2]|[H1 (H2 & H3 & H4)]]; [lia| |].
  - rewrite H1. cbn [Z.leb]. change (0 <=? -1)%Z with false. cbn [rbind]. rewrite substr2_ok by lia. cbn [rbind fst snd].
    destruct fuel as [|fuel]; [lia|]. cbn [siter_all]. unfold siter_has_next. cbn [it_next so_size ss_new]. rewrite str_len_short by lia. rewrite Z.ltb_irrefl. cbn [rbind].
    eexists. split; [done|]. apply cut_last. intros k Hk. pose proof (occurs_nonneg _ _ _ Hk).
    apply (H2 (k + Z.of_nat (Z.to_nat cur))%Z); [lia|]. by apply occurs_drop; [lia|lia|].
  - set (n := str_find v sep cur) in *. destruct (Z.leb_spec 0 n); [|lia]. pose proof (occurs_nonneg _ _ _ H3) as Hn.
    rewrite checked32 by lia. cbn [rbind]. rewrite substr3_ok by lia. cbn [rbind fst snd].
    destruct (IH cur (n + Z.of_nat (length sep))%Z) as (ps & Hps & Hcut); [done|done|lia|lia|].
    replace (n + Z.of_nat (length sep) - Z.of_nat (length sep))%Z with n in Hps by lia.
    rewrite Hps. cbn [rbind]. eexists. split; [done|].
    assert (drop (Z.to_nat cur) v = take (Z.to_nat (n - cur)) (drop (Z.to_nat cur) v) ++ sep ++ drop (Z.to_nat (n + Z.of_nat (length sep))) v) as E.
    { rewrite <- (take_drop (Z.to_nat (n - cur)) (drop (Z.to_nat cur) v)) at 1. f_equal. rewrite drop_drop.
      replace (Z.to_nat cur + Z.to_nat (n - cur))%nat with (Z.to_nat n) by lia. destruct H3 as (a & b & E & Ha). rewrite E.
      replace (Z.to_nat n) with (length a) by lia. rewrite drop_app. f_equal.
      replace (Z.to_nat (n + Z.of_nat (length sep))) with (length a + length sep)%nat by lia. rewrite drop_add_app, drop_app by done. done. }
    rewrite E at 1. apply cut_more; [|done]. rewrite <- E.
    replace (Z.of_nat (length (take (Z.to_nat (n - cur)) (drop (Z.to_nat cur) v)))) with (n - cur)%Z by (rewrite take_length, drop_length; lia).
    split_and!; [lia| |].
    + apply occurs_drop; [lia|lia|]. by replace (n - cur + Z.of_nat (Z.to_nat cur))%Z with n by lia.
    + intros j Hj Ho. apply occurs_drop in Ho; [|lia|lia]. by apply (H4 (j + Z.of_nat (Z.to_nat cur))%Z); [lia|].
Qed.
Lemma cut_join sep s ps : cut sep s ps -> join sep ps = s /\ ps <> [].
Proof.
  induction 1 as [s H|p r ps Hf Hc [IH Hne]]; [done|]. split; [|done]. destruct ps as [|q ps]; [done|]. change (join sep (p :: q :: ps)) with (p ++ sep ++ join sep (q :: ps)). by rewrite IH.
Qed.
Lemma cut_pieces sep s ps : cut sep s ps -> sep <> [] -> Forall (fun p => forall i, ~ occurs p sep i) ps.
Proof.
  intros H Hne. induction H as [s H|p r ps (_ & _ & Hf) Hc IH]; [by repeat constructor|]. constructor; [|done].
  intros i Hi. pose proof (occurs_nonneg _ _ _ Hi) as Hb. assert (0 < length sep)%nat by (destruct sep; [done|cbn; lia]). apply (Hf i); [lia|].
  destruct Hi as (a & b & -> & <-). exists a, (b ++ sep ++ r). by rewrite <- !app_assoc.
Qed.
Lemma cut_unique sep s ps : cut sep s ps -> forall qs, cut sep s qs -> ps = qs.
Proof.
  induction 1 as [s H|p r ps (H1 & H2 & H3) Hc IH]; intros qs Hq.
  - inversion Hq as [s' H' E1|p r qs' Hf Hq' E1]; subst; [done|]. destruct (H (Z.of_nat (length p))). apply occurs_app_at.
  - remember (p ++ sep ++ r) as s eqn:Es. destruct Hq as [s H|q t qs (G1 & G2 & G3) Hq].
    + subst. by destruct (H (Z.of_nat (length p))).
    + assert (length p = length q) as Hl.
      { destruct (Nat.lt_trichotomy (length p) (length q)) as [L|[L|L]]; [|done|].
        - destruct (G3 (Z.of_nat (length p))); [lia|]. done.
        - destruct (H3 (Z.of_nat (length q))); [lia|]. done. }
      apply app_inj_1 in Es as [-> Es]; [|done]. apply (inj (app sep)) in Es as ->. f_equal. by apply IH.
Qed.

(** ** Every character *)
Lemma citer_all_spec v fuel : forall i, short v -> (-1 <= i <= Z.of_nat (length v))%Z -> (Z.of_nat (length v) - i < Z.of_nat fuel)%Z ->
  citer_all fuel v i = Ok (if (i <? Z.of_nat (length v))%Z then map (fun c => [c]) (drop (Z.to_nat (i + 1)) v) ++ [[]] else []).
Proof.
  induction fuel as [|fuel IH]; intros i Hs Hi Hf; [lia|]. pose proof Hs as Hs'. unfold short in Hs'. cbn [citer_all]. rewrite str_len_short by lia.
  destruct (Z.ltb_spec i (Z.of_nat (length v))) as [Hl|Hl]; [|done].
  destruct (Z.ltb_spec (Z.of_nat (length v)) (i + 1)); [lia|]. rewrite substr3_ok by lia. cbn [rbind]. rewrite IH by (done || lia). cbn [rbind]. f_equal.
  change (Z.to_nat 1) with 1%nat.
  destruct (Z.ltb_spec (i + 1) (Z.of_nat (length v))) as [H1|H1].
  - replace (Z.to_nat (i + 1 + 1)) with (S (Z.to_nat (i + 1))) by lia.
    destruct (drop (Z.to_nat (i + 1)) v) as [|c w] eqn:E.
    + apply (f_equal length) in E. rewrite drop_length in E. cbn in E. lia.
    + assert (drop (S (Z.to_nat (i + 1))) v = w) as ->.
      { replace (S (Z.to_nat (i + 1))) with (Z.to_nat (i + 1) + 1)%nat by lia. rewrite <- drop_drop, E. cbn [drop]. apply drop_0. }
      cbn [take map app]. by rewrite take_0.
  - assert (i + 1 = Z.of_nat (length v))%Z as -> by lia. rewrite Nat2Z.id, drop_all. done.
Qed.
