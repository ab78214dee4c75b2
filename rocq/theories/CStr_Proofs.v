(** Lemmas on the text functions of the extensions. *)
From Verif Require Import Base Text_Model Value_Model SysStr_Model SysStr_Spec SysStr_Proofs CStr_Model CStr_Spec.

Lemma byte_range c : (0 <= byte c < 256)%Z.
Proof. unfold byte. pose proof (N_ascii_bounded c). lia. Qed.
Lemma byte_pos c : c <> zero_byte -> (0 < byte c)%Z.
Proof.
  intros H. pose proof (byte_range c) as Hb. destruct (decide (byte c = 0%Z)) as [E|]; [|lia]. destruct H. unfold byte in E.
  rewrite <- (ascii_N_embedding c). by replace (N_of_ascii c) with 0%N by lia.
Qed.
Lemma byte_lt x y : (byte x < byte y)%Z <-> (N_of_ascii x < N_of_ascii y)%N.
Proof. unfold byte. lia. Qed.
Lemma byte_inj x y : byte x = byte y -> x = y.
Proof. unfold byte. intros H. rewrite <- (ascii_N_embedding x), <- (ascii_N_embedding y). f_equal. lia. Qed.

Lemma c_str_seen s : seen s (c_str s).
Proof.
  induction s as [|c s [IH1 IH2]]; [split; [apply not_elem_of_nil|by left]|]. cbn [c_str]. case_bool_decide as E.
  - split; [apply not_elem_of_nil|]. right. exists s. by subst.
  - split; [by apply not_elem_of_cons|]. destruct IH2 as [IH|[r IH]]; [left|right; exists r]; rewrite IH at 1; done.
Qed.
Lemma seen_unique s : forall p, seen s p -> p = c_str s.
Proof.
  induction s as [|c s IH]; intros p [Hn [<-|[r E]]].
  - done.
  - by destruct p.
  - cbn [c_str]. apply not_elem_of_cons in Hn as [Hc Hn]. rewrite bool_decide_eq_false_2 by (intros ->; done). f_equal. apply IH. split; [done|by left].
  - destruct p as [|d p]; injection E as -> E; cbn [c_str].
    + by rewrite bool_decide_eq_true_2.
    + apply not_elem_of_cons in Hn as [Hc Hn]. rewrite bool_decide_eq_false_2 by (intros ->; done). f_equal. apply IH. split; [done|]. right. by exists r.
Qed.
Lemma c_str_length s : (length (c_str s) <= length s)%nat.
Proof. induction s as [|c s IH]; cbn [c_str]; [done|]. case_bool_decide; cbn [length]; lia. Qed.

(** ** Order *)
Lemma before_cons x a b : before (x :: a) (x :: b) <-> before a b.
Proof.
  split.
  - intros [p [[E (y & b' & E')]|(u & v & a' & b' & E & E' & H)]].
    + subst p. injection E' as E'. exists a. left. split; [done|]. by exists y, b'.
    + destruct p as [|z p].
      * injection E as -> E. injection E' as <- E'. lia.
      * injection E as -> E. injection E' as E'. exists p. right. by exists u, v, a', b'.
  - intros [p [[-> (y & b' & ->)]|(u & v & a' & b' & -> & -> & H)]]; exists (x :: p).
    + left. split; [done|]. by exists y, b'.
    + right. by exists u, v, a', b'.
Qed.
Lemma before_nil_r a : ~ before a [].
Proof. intros [p [[-> (y & b' & E)]|(u & v & a' & b' & _ & E & _)]]; by destruct p. Qed.
Lemma before_nil_cons y b : before [] (y :: b).
Proof. exists []. left. split; [done|]. by exists y, b. Qed.
Lemma before_diff x y a b : x <> y -> before (x :: a) (y :: b) <-> (N_of_ascii x < N_of_ascii y)%N.
Proof.
  intros Hne. split.
  - intros [p [[E (z & b' & E')]|(u & v & a' & b' & E & E' & H)]].
    + subst p. by injection E' as E' _.
    + destruct p as [|z p]; injection E as -> E; injection E' as -> E'; done.
  - intros H. exists []. right. by exists x, y, a, b.
Qed.
Lemma before_ltb a : forall b, before a b <-> str_ltb a b = true.
Proof.
  induction a as [|x a IH]; intros [|y b]; cbn [str_ltb].
  - split; [intros H; by apply before_nil_r in H|done].
  - split; [done|]. intros _. apply before_nil_cons.
  - split; [intros H; by apply before_nil_r in H|done].
  - destruct (decide (x = y)) as [->|Hne].
    + rewrite before_cons, N.ltb_irrefl. apply IH.
    + rewrite before_diff by done. destruct (N.ltb_spec (N_of_ascii x) (N_of_ascii y)); [done|].
      assert (N_of_ascii x <> N_of_ascii y) by (intros E; destruct Hne; apply byte_inj; unfold byte; by rewrite E).
      destruct (N.ltb_spec (N_of_ascii y) (N_of_ascii x)); [split; [lia|done]|lia].
Qed.
Lemma before_trans a b c : before a b -> before b c -> before a c.
Proof.
  rewrite !before_ltb. revert b c. induction a as [|x a IH]; intros [|y b] [|z c]; cbn [str_ltb]; try done.
  destruct (N.ltb_spec (N_of_ascii x) (N_of_ascii y)), (N.ltb_spec (N_of_ascii y) (N_of_ascii z)), (N.ltb_spec (N_of_ascii x) (N_of_ascii z));
    try done; try lia; destruct (N.ltb_spec (N_of_ascii y) (N_of_ascii x)), (N.ltb_spec (N_of_ascii z) (N_of_ascii y)), (N.ltb_spec (N_of_ascii z) (N_of_ascii x));
    try done; try lia. apply IH.
Qed.
Lemma before_irrefl a : ~ before a a.
Proof. induction a as [|x a IH]; [apply before_nil_r|by rewrite before_cons]. Qed.

Lemma sign_equal a : tells_order 0 a a.
Proof. split_and!; (split; [try lia; done|]); [done|intros H; by apply before_irrefl in H|intros H; by apply before_irrefl in H]. Qed.
Lemma sign_less z a b : (z < 0)%Z -> before a b -> tells_order z a b.
Proof.
  intros Hz Hb. assert (~ before b a) by (intros H; apply (before_irrefl a); by eapply before_trans).
  assert (a <> b) by (intros ->; by apply before_irrefl in Hb). split_and!; (split; [intros; try lia; done|intros; try lia; done]).
Qed.
Lemma sign_greater z a b : (0 < z)%Z -> before b a -> tells_order z a b.
Proof.
  intros Hz Hb. assert (~ before a b) by (intros H; apply (before_irrefl a); by eapply before_trans).
  assert (a <> b) by (intros ->; by apply before_irrefl in Hb). split_and!; (split; [intros; try lia; done|intros; try lia; done]).
Qed.
Lemma tells_cons z x a b : tells_order z a b -> tells_order z (x :: a) (x :: b).
Proof. intros (H1 & H2 & H3). split_and!; [rewrite H1; split; [by intros ->|by injection 1]|by rewrite before_cons|by rewrite before_cons]. Qed.
Lemma tells_diff x y a b : x <> y -> tells_order (byte x - byte y) (x :: a) (y :: b).
Proof.
  intros Hne. assert (byte x <> byte y) by (by intros ?%byte_inj). destruct (Z.lt_ge_cases (byte x) (byte y)) as [H'|H'].
  - apply sign_less; [lia|]. apply before_diff; [done|]. by apply byte_lt.
  - apply sign_greater; [lia|]. apply before_diff; [done|]. apply byte_lt. lia.
Qed.
Lemma strcmp_tells a : forall b, zero_byte ∉ a -> zero_byte ∉ b -> tells_order (c_strcmp a b) a b.
Proof.
  induction a as [|x a IH]; intros [|y b] Ha Hb; cbn [c_strcmp].
  - apply sign_equal.
  - apply not_elem_of_cons in Hb as [Hb _]. apply sign_less; [pose proof (byte_pos y (not_eq_sym Hb)); lia|apply before_nil_cons].
  - apply not_elem_of_cons in Ha as [Ha _]. apply sign_greater; [apply byte_pos; congruence|apply before_nil_cons].
  - apply not_elem_of_cons in Ha as [Ha Ha'], Hb as [Hb Hb']. case_bool_decide as E.
    + subst y. by apply tells_cons, IH.
    + by apply tells_diff.
Qed.
Lemma strncmp_take a : forall b n, (0 <= n)%Z -> c_strncmp a b n = c_strcmp (take (Z.to_nat n) a) (take (Z.to_nat n) b).
Proof.
  induction a as [|x a IH]; intros b n Hn; destruct (decide (n = 0%Z)) as [->|Hz]; try (destruct b; reflexivity);
    destruct (Z.to_nat n) as [|m] eqn:En; try lia; cbn [c_strncmp]; rewrite (proj2 (Z.eqb_neq n 0)) by done.
  - by destruct b.
  - destruct b as [|y b]; [done|]. cbn [take c_strcmp firstn]. case_bool_decide; [|done]. rewrite IH by lia. by replace (Z.to_nat (n - 1)) with m by lia.
Qed.
Lemma strcmp_range a : forall b, (-256 < c_strcmp a b < 256)%Z.
Proof.
  induction a as [|x a IH]; intros [|y b]; cbn [c_strcmp]; try pose proof (byte_range x); try pose proof (byte_range y); try lia.
  case_bool_decide; [apply IH|lia].
Qed.
Lemma take_all_c n (s : str) : (Z.of_nat (length s) <= n)%Z -> take (Z.to_nat n) s = s.
Proof. intros H. apply take_ge. lia. Qed.

(** ** Fronts and rests *)
Lemma span_longest (inside : bool) (set a : str) : longest_front (fun c : ascii => if inside then c ∈ set else c ∉ set) a (c_span inside a set).
Proof.
  induction a as [|x a (p & r & E & Hl & Hp & Hr)].
  - exists [], []. split_and!; [done|done|intros c Hc; by apply elem_of_nil in Hc|done].
  - cbn [c_span]. destruct (Bool.eqb (bool_decide (x ∈ set)) inside) eqn:Eb.
    + apply eqb_prop in Eb. exists (x :: p), r. split_and!; [by rewrite E|cbn [length]; lia| |done].
      intros c [->|Hc]%elem_of_cons; [|by apply Hp]. destruct inside; [by apply bool_decide_eq_true in Eb|by apply bool_decide_eq_false in Eb].
    + exists [], (x :: a). split_and!; [done|done|intros c Hc; by apply elem_of_nil in Hc|].
      intros c r' [= <- <-]. destruct inside; case_bool_decide; cbn in Eb; try done; tauto.
Qed.
Lemma longest_unique P s n m : longest_front P s n -> longest_front P s m -> n = m.
Proof.
  intros (p & r & E & <- & Hp & Hr) (p' & r' & E' & <- & Hp' & Hr'). subst s. revert p' E' Hp'. induction p as [|x p IH]; intros [|y p'] E' Hp'.
  - done.
  - cbn in E'. destruct (Hr _ _ E'). apply Hp'. left.
  - cbn in E'. destruct (Hr' _ _ (eq_sym E')). apply Hp. left.
  - injection E' as -> E'. cbn [length]. enough (Z.of_nat (length p) = Z.of_nat (length p')) by lia. apply IH; [|done|].
    + intros c Hc. apply Hp. by right.
    + intros c Hc. apply Hp'. by right.
Qed.
Lemma span_bound inside set a : (0 <= c_span inside a set <= Z.of_nat (length a))%Z.
Proof. destruct (span_longest inside set a) as (p & r & -> & <- & _). rewrite app_length. lia. Qed.

Lemma from_first_here (P : ascii -> Prop) x a w : P x -> from_first P (x :: a) w <-> w = x :: a.
Proof.
  intros Hx. split.
  - intros (p & c & w' & E & -> & Hc & Hp). destruct p as [|y p]; [by rewrite E|]. injection E as -> E. destruct (Hp y); [left|done].
  - intros ->. exists [], x, a. split_and!; [done..|]. intros d Hd. by apply elem_of_nil in Hd.
Qed.
Lemma from_first_later (P : ascii -> Prop) x a w : ~ P x -> from_first P (x :: a) w <-> from_first P a w.
Proof.
  intros Hx. split.
  - intros (p & c & w' & E & -> & Hc & Hp). destruct p as [|y p]; injection E as -> E; [done|]. exists p, c, w'. split_and!; [done..|]. intros d Hd. apply Hp. by right.
  - intros (p & c & w' & -> & -> & Hc & Hp). exists (x :: p), c, w'. split_and!; [done..|]. intros d [->|Hd]%elem_of_cons; [done|by apply Hp].
Qed.
Lemma from_first_nil P w : ~ from_first P [] w.
Proof. intros (p & c & w' & E & -> & _). by destruct p. Qed.
Lemma strchr_iff c a w : c <> zero_byte -> c_strchr a c = Some w <-> from_first (fun d => d = c) a w.
Proof.
  intros Hc. induction a as [|x a IH]; cbn [c_strchr].
  - rewrite bool_decide_eq_false_2 by done. split; [done|]. intros H. by apply from_first_nil in H.
  - case_bool_decide as E.
    + rewrite from_first_here by done. split; [by intros [= <-]|by intros ->].
    + by rewrite from_first_later.
Qed.
Lemma strpbrk_iff (set a w : str) : c_strpbrk a set = Some w <-> from_first (fun d => d ∈ set) a w.
Proof.
  induction a as [|x a IH]; cbn [c_strpbrk].
  - split; [done|]. intros H. by apply from_first_nil in H.
  - case_bool_decide as E.
    + rewrite from_first_here by done. split; [by intros [= <-]|by intros ->].
    + by rewrite from_first_later.
Qed.
Lemma strchr_none c a : c <> zero_byte -> c_strchr a c = None <-> c ∉ a.
Proof.
  intros Hc. induction a as [|x a IH]; cbn [c_strchr].
  - rewrite bool_decide_eq_false_2 by done. split; [intros _; apply not_elem_of_nil|done].
  - rewrite not_elem_of_cons. case_bool_decide as E; [split; [done|intros [H _]; congruence]|]. rewrite IH. split; [intros H; split; [congruence|done]|by intros [_ ?]].
Qed.
Lemma strpbrk_none (set a : str) : c_strpbrk a set = None <-> forall c, c ∈ a -> c ∉ set.
Proof.
  induction a as [|x a IH]; cbn [c_strpbrk].
  - split; [intros _ c Hc; by apply elem_of_nil in Hc|done].
  - case_bool_decide as E; [split; [done|intros H; destruct (H x); [left|done]]|]. rewrite IH. split.
    + intros H c [->|Hc]%elem_of_cons; [done|by apply H].
    + intros H c Hc. apply H. by right.
Qed.
Lemma strrchr_none c a : c <> zero_byte -> c_strrchr a c = None <-> c ∉ a.
Proof.
  intros Hc. induction a as [|x a IH]; cbn [c_strrchr].
  - rewrite bool_decide_eq_false_2 by done. split; [intros _; apply not_elem_of_nil|done].
  - rewrite not_elem_of_cons. destruct (c_strrchr a c) eqn:E.
    + split; [done|]. intros [_ H]. by apply IH in H.
    + case_bool_decide as E'; [split; [done|intros [H _]; congruence]|]. split; [|done]. intros _. split; [congruence|by apply IH].
Qed.
Lemma strrchr_iff c a : forall w, c <> zero_byte -> c_strrchr a c = Some w <-> from_last (fun d => d = c) a w.
Proof.
  induction a as [|x a IH]; intros w Hc; cbn [c_strrchr].
  - rewrite bool_decide_eq_false_2 by done. split; [done|]. intros (p & d & w' & E & -> & _). by destruct p.
  - destruct (c_strrchr a c) as [w0|] eqn:E.
    + clear E. pose proof (proj1 (IH w0 Hc) eq_refl) as E. split.
      * intros [= <-]. destruct E as (p & d & w' & -> & -> & Hd & Hw). by exists (x :: p), d, w'.
      * intros (p & d & w' & E' & -> & Hd & Hw). destruct p as [|y p]; injection E' as -> E'.
        -- subst d a. destruct E as (p & d & w2 & -> & -> & -> & _). destruct (Hw c); [|done]. apply elem_of_app. right. left.
        -- assert (from_last (fun d => d = c) a (d :: w')) as H by (by exists p, d, w'). apply IH in H; done.
    + apply strrchr_none in E; [|done]. case_bool_decide as E'.
      * split.
        -- intros [= <-]. exists [], x, a. split_and!; [done..|]. intros d Hd ->. done.
        -- intros (p & d & w' & E2 & -> & Hd & Hw). destruct p as [|y p]; injection E2 as -> E2; [by rewrite E2|]. destruct E. rewrite E2, Hd. apply elem_of_app. right. left.
      * split; [done|]. intros (p & d & w' & E2 & -> & Hd & Hw). destruct p as [|y p]; injection E2 as -> E2; [done|]. destruct E. rewrite E2, Hd. apply elem_of_app. right. left.
Qed.
Lemma strstr_iff t a w : c_strstr a t = Some w <-> exists p, a = p ++ w /\ first_from a t 0 (Z.of_nat (length p)).
Proof.
  revert w. induction a as [|x a IH]; intros w; cbn [c_strstr].
  - destruct (is_prefix t []) eqn:E.
    + split.
      * intros [= <-]. exists []. split; [done|]. split_and!; [done|by apply occurs_0, is_prefix_iff|cbn; lia].
      * intros (p & Ea & _). by destruct p, w.
    + split; [done|]. intros (p & Ea & _ & Ho & _). destruct p, w; try done. apply occurs_0, is_prefix_iff in Ho. congruence.
  - destruct (is_prefix t (x :: a)) eqn:E.
    + apply is_prefix_iff, occurs_0 in E. split.
      * intros [= <-]. exists []. split; [done|]. split_and!; [done|done|cbn; lia].
      * intros (p & Ea & _ & _ & Hn). destruct p as [|y p]; [by rewrite Ea|]. destruct (Hn 0%Z); [cbn; lia|done].
    + assert (~ occurs (x :: a) t 0) as H0 by (intros H; apply occurs_0, is_prefix_iff in H; congruence). rewrite IH. split.
      * intros (p & -> & _ & Ho & Hn). exists (x :: p). split; [done|]. split_and!; [lia| |].
        -- replace (Z.of_nat (length (x :: p))) with (Z.of_nat (length p) + 1)%Z by (cbn [length]; lia). apply occurs_cons; [lia|done].
        -- intros j Hj Hoj. destruct (decide (j = 0%Z)) as [->|]; [done|]. apply (Hn (j - 1)%Z); [cbn [length] in Hj; lia|]. apply (occurs_cons x); [lia|]. by replace (j - 1 + 1)%Z with j by lia.
      * intros (p & Ea & _ & Ho & Hn). destruct p as [|y p]; [done|]. injection Ea as -> Ea. exists p. split; [done|]. split_and!; [lia| |].
        -- replace (Z.of_nat (length (y :: p))) with (Z.of_nat (length p) + 1)%Z in Ho by (cbn [length]; lia). exact (proj1 (occurs_cons y a t _ (Nat2Z.is_nonneg _)) Ho).
        -- intros j Hj Hoj. apply (Hn (j + 1)%Z); [cbn [length]; lia|]. apply occurs_cons; [lia|done].
Qed.
Lemma strstr_none t a : c_strstr a t = None <-> forall i, ~ occurs a t i.
Proof.
  induction a as [|x a IH]; cbn [c_strstr].
  - destruct (is_prefix t []) eqn:E.
    + split; [done|]. intros H. destruct (H 0%Z). by apply occurs_0, is_prefix_iff.
    + split; [|done]. intros _ i Hi. pose proof (occurs_nonneg _ _ _ Hi) as Hl. cbn [length] in Hl. assert (i = 0%Z) as -> by lia. apply occurs_0, is_prefix_iff in Hi. congruence.
  - destruct (is_prefix t (x :: a)) eqn:E.
    + split; [done|]. intros H. destruct (H 0%Z). by apply occurs_0, is_prefix_iff.
    + rewrite IH. split.
      * intros H i Hi. pose proof (occurs_nonneg _ _ _ Hi). destruct (decide (i = 0%Z)) as [->|]; [apply occurs_0, is_prefix_iff in Hi; congruence|].
        apply (H (i - 1)%Z). apply (occurs_cons x); [lia|]. by replace (i - 1 + 1)%Z with i by lia.
      * intros H i Hi. pose proof (occurs_nonneg _ _ _ Hi). apply (H (i + 1)%Z). apply occurs_cons; [lia|done].
Qed.
(** ** Case *)
Lemma to_lower_spec c : lowered c (to_lower c).
Proof. unfold lowered, capital, to_lower. destruct (Nat.leb_spec 65 (nat_of_ascii c)), (Nat.leb_spec (nat_of_ascii c) 90); cbn [andb]; [left|right; split; [lia|done]..]. split; [lia|]. apply nat_ascii_embedding. lia. Qed.
Lemma to_upper_spec c : raised c (to_upper c).
Proof. unfold raised, small, to_upper. destruct (Nat.leb_spec 97 (nat_of_ascii c)), (Nat.leb_spec (nat_of_ascii c) 122); cbn [andb]; [left|right; split; [lia|done]..]. split; [lia|]. rewrite nat_ascii_embedding; lia. Qed.
Lemma ascii_eq c d : nat_of_ascii c = nat_of_ascii d -> c = d.
Proof. intros H. rewrite <- (ascii_nat_embedding c), <- (ascii_nat_embedding d). by rewrite H. Qed.
