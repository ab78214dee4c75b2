(** Properties C42, C43: version numbers. *)
From Verif Require Import Base Base_Proofs Text_Model Text_Proofs SemVer_Model.

Definition in_int32 (z : Z) : Prop := (-2147483648 <= z <= 2147483647)%Z.

(** Versions the printed form of which can be read back: 32 bit numbers, a bugfix
    number that is not negative, a label without '+'. *)
Definition printable (v : version) : Prop :=
  in_int32 (v_major v) /\ in_int32 (v_minor v) /\ in_int32 (v_bugfix v) /\
  (0 <= v_bugfix v)%Z /\ chr 43 ∉ v_label v.

Lemma to_int32_id z : in_int32 z -> to_int32 z = z.
Proof. unfold in_int32, to_int32. intros H. rewrite Z.mod_small; lia. Qed.
Lemma to_int32_range z : in_int32 (to_int32 z).
Proof. unfold in_int32, to_int32. pose proof (Z.mod_pos_bound (z + 2147483648) 4294967296). lia. Qed.

Lemma print_int_no z n : n <> 45%nat -> (n < 48 \/ 57 < n)%nat -> (n < 256)%nat -> chr n ∉ print_int z.
Proof.
  intros H1 H2 H3 H. apply print_int_chars in H as [H|H].
  - apply H1. assert (nat_of_ascii (chr n) = nat_of_ascii (chr 45)) as E by congruence.
    unfold chr in E. rewrite !nat_ascii_embedding in E by lia. lia.
  - by apply (digit_not (chr n) n) in H.
Qed.
Lemma parse_print32 z : in_int32 z -> to_int32 (string_to_int (print_int z)) = z.
Proof.
  intros H. rewrite <- (app_nil_r (print_int z)). rewrite string_to_int_print; [by apply to_int32_id| |done].
  unfold in_int32, int64_min, int64_max in *. lia.
Qed.

Lemma split_print3 v : printable v ->
  parse_version (print_version v) =
  (v, negb ((v_major v =? 0)%Z && (v_minor v =? 0)%Z && (v_bugfix v =? 0)%Z &&
            bool_decide (v_label v = []) && bool_decide (v_meta v = []))).
Proof.
  intros (Ha&Hb&Hc&Hpos&Hl). destruct v as [a b c l m]. cbn [v_major v_minor v_bugfix v_label v_meta] in *.
  unfold print_version. cbn [v_major v_minor v_bugfix v_label v_meta].
  set (X := (if bool_decide (l = []) then [] else chr 45 :: l)).
  set (Y := (if bool_decide (m = []) then [] else chr 43 :: m)).
  assert (Ec : split_by (print_int c ++ X ++ Y) (chr 43) = (print_int c ++ X, m)).
  { assert (Hno : chr 43 ∉ print_int c ++ X).
    { rewrite elem_of_app. intros [H|H]; [by apply print_int_no in H; lia|].
      subst X. destruct (bool_decide_reflect (l = [])); [by apply elem_of_nil in H|].
      apply elem_of_cons in H as [H|H]; [discriminate H|done]. }
    subst Y. destruct (bool_decide_reflect (m = [])) as [->|Hm].
    - rewrite app_nil_r. by apply split_by_none.
    - rewrite (assoc_L (++)). by apply split_by_app. }
  assert (Ed : split_by (print_int c ++ X) (chr 45) = (print_int c, l)).
  { assert (Hno : chr 45 ∉ print_int c).
    { intros H. apply print_int_nonneg_chars in H; [|done]. by apply (digit_not (chr 45) 45) in H; try lia. }
    subst X. destruct (bool_decide_reflect (l = [])) as [->|Hm].
    - rewrite app_nil_r. by apply split_by_none.
    - by apply split_by_app. }
  assert (Eb : split_by (print_int b ++ $"." ++ print_int c ++ X ++ Y) (chr 46) = (print_int b, print_int c ++ X ++ Y)).
  { apply (split_by_app (chr 46)). apply print_int_no; lia. }
  assert (Ea : split_by (print_int a ++ $"." ++ print_int b ++ $"." ++ print_int c ++ X ++ Y) (chr 46) =
               (print_int a, print_int b ++ $"." ++ print_int c ++ X ++ Y)).
  { apply (split_by_app (chr 46)). apply print_int_no; lia. }
  unfold parse_version.
  destruct (print_int a ++ $"." ++ print_int b ++ $"." ++ print_int c ++ X ++ Y) as [|x s] eqn:E.
  { destruct (print_int a); done. }
  rewrite Ea. cbn [fst snd]. rewrite Eb. cbn [fst snd]. rewrite Ec. cbn [fst snd]. rewrite Ed. cbn [fst snd].
  rewrite !parse_print32 by done. done.
Qed.

(** ** C42 *)
Theorem C42_parse_print v : printable v ->
  fst (parse_version (print_version v)) = v /\
  (snd (parse_version (print_version v)) = true <->
     ~ (v_major v = 0%Z /\ v_minor v = 0%Z /\ v_bugfix v = 0%Z /\ v_label v = [] /\ v_meta v = [])).
Proof.
  intros H. rewrite split_print3 by done. cbn [fst snd]. split; [done|].
  rewrite negb_true_iff, <- not_true_iff_false, !andb_true_iff, !Z.eqb_eq, !bool_decide_eq_true. tauto.
Qed.
(** Every version the parser produces can be printed and read back, unless its bugfix number
    exceeds 32 bits. *)
Theorem C42_parsed_roundtrip s : (0 <= v_bugfix (fst (parse_version s)))%Z ->
  fst (parse_version (print_version (fst (parse_version s)))) = fst (parse_version s).
Proof.
  intros H. apply C42_parse_print. unfold printable. destruct s as [|x s].
  - cbn. unfold in_int32. split_and!; try lia. apply not_elem_of_nil.
  - cbn [parse_version fst v_major v_minor v_bugfix v_label v_meta] in *.
    split; [apply to_int32_range|]. split; [apply to_int32_range|]. split; [apply to_int32_range|]. split; [done|].
    set (r := snd (split_by (snd (split_by (x :: s) (chr 46))) (chr 46))).
    assert (H1 : chr 43 ∉ fst (split_by r (chr 43))).
    { unfold split_by at 1. destruct (find_first (chr 43) r) as [i|] eqn:E; [by apply find_first_Some in E as [_ ?]|].
      by apply find_first_None. }
    set (w := fst (split_by r (chr 43))) in *. unfold split_by.
    destruct (find_first (chr 45) w) as [i|]; [|apply not_elem_of_nil].
    cbn [snd]. intros Hin. apply H1. rewrite <- (take_drop (S i) w). rewrite elem_of_app. by right.
Qed.
Theorem C42_parsed_roundtrip_overflow_refuted :
  exists s, fst (parse_version (print_version (fst (parse_version s)))) <> fst (parse_version s).
Proof. exists ($"1.2.4294967295"). by vm_compute. Qed.
(** The Slang library: FromString(cast<string>(v)) = v for versions without metadata. *)
Theorem C42_library v : (0 <= v_major v <= 2147483647)%Z -> (0 <= v_minor v <= 2147483647)%Z ->
  (0 <= v_bugfix v <= 2147483647)%Z -> (v_label v = [] \/ string_to_bool (v_label v) = true) -> v_meta v = [] ->
  lib_from_string (lib_print v) = Ok v.
Proof.
  destruct v as [a b c l m]. cbn [v_major v_minor v_bugfix v_label v_meta]. intros Ha Hb Hc Hl ->.
  unfold lib_print. cbn [v_major v_minor v_bugfix v_label v_meta].
  replace (truthy []) with false by done. rewrite app_nil_r.
  set (X := (if truthy l then chr 45 :: l else [])).
  assert (HX : X = [] /\ l = [] \/ X = chr 45 :: l).
  { subst X. destruct Hl as [->|Hl]; [left; by vm_compute|right; unfold truthy; by rewrite Hl]. }
  clearbody X. clear Hl.
  assert (Hne : forall z, (1 <= length (print_int z))%nat).
  { intros z. assert (forall n, 1 <= length (digits n))%nat as Hd.
    { intros n. destruct (digits_ok n) as (_&_&H). destruct (digits n); [done|cbn; lia]. }
    destruct z; cbn [print_int length]; try apply Hd. lia. }
  pose proof (Hne a) as La. pose proof (Hne b) as Lb. pose proof (Hne c) as Lc. clear Hne.
  set (A := print_int a) in *. set (B := print_int b) in *. set (C := print_int c) in *.
  assert (NA : chr 46 ∉ A) by (apply print_int_no; lia).
  assert (NB : chr 46 ∉ B) by (apply print_int_no; lia).
  assert (NC : chr 45 ∉ C).
  { intros H. apply print_int_nonneg_chars in H; [|lia]. by apply (digit_not (chr 45) 45) in H; try lia. }
  set (S := A ++ $"." ++ B ++ $"." ++ C ++ X).
  assert (E1 : strfind S (chr 46) 0 = Z.of_nat (length A)).
  { unfold strfind. rewrite drop_0. unfold S. cbn [app s2l String.list_ascii_of_string]. 
    rewrite find_first_app by done. by rewrite Nat.add_0_l. }
  assert (D1 : drop (length A + 1) S = B ++ $"." ++ C ++ X).
  { unfold S. rewrite (assoc_L (++) A). apply drop_app_alt. rewrite app_length. cbn. lia. }
  assert (E2 : strfind S (chr 46) (length A + 1) = Z.of_nat (length A + 1 + length B)).
  { unfold strfind. rewrite D1. cbn [app s2l String.list_ascii_of_string]. by rewrite find_first_app. }
  assert (D2 : drop (length A + 1 + length B + 1) S = C ++ X).
  { replace (length A + 1 + length B + 1)%nat with (length A + 1 + (length B + 1))%nat by lia.
    rewrite <- drop_drop, D1, (assoc_L (++) B). apply drop_app_alt. rewrite app_length. cbn. lia. }
  assert (LS : (5 <= length S)%nat).
  { unfold S. rewrite !app_length. cbn [length s2l String.list_ascii_of_string]. lia. }
  unfold lib_from_string. rewrite E1.
  destruct (Z.eqb_spec (Z.of_nat (length A)) 0); [lia|].
  replace (Z.to_nat (Z.of_nat (length A) + 1)) with (length A + 1)%nat by lia. rewrite E2.
  destruct (Z.eqb_spec (Z.of_nat (length A + 1 + length B)) 0); [lia|].
  destruct (Z.eqb_spec (Z.of_nat (length A)) (-1)); [lia|].
  destruct (Z.eqb_spec (Z.of_nat (length A + 1 + length B)) (-1)); [lia|].
  destruct (Nat.ltb_spec (length S) 5); [lia|]. cbn [orb].
  rewrite !Nat2Z.id. f_equal.
  assert (Elabel : (if (strfind S (chr 45) (length A + 1 + length B + 1) =? -1)%Z then []
     else drop (Z.to_nat (strfind S (chr 45) (length A + 1 + length B + 1)) + 1) S) = l).
  { unfold strfind. rewrite D2. destruct HX as [[-> ->]| ->].
    - rewrite app_nil_r. by rewrite (proj2 (find_first_None _ _) NC).
    - rewrite find_first_app by done.
      destruct (Z.eqb_spec (Z.of_nat (length A + 1 + length B + 1 + length C)) (-1)); [lia|].
      rewrite Nat2Z.id.
      replace (length A + 1 + length B + 1 + length C + 1)%nat with (length A + 1 + length B + 1 + (length C + 1))%nat by lia.
      rewrite <- drop_drop, D2. change (chr 45 :: l) with ([chr 45] ++ l). rewrite (assoc_L (++) C).
      apply drop_app_alt. rewrite app_length. cbn. lia. }
  rewrite Elabel. unfold substr. rewrite drop_0.
  assert (take (length A) S = A) as -> by (unfold S; by rewrite take_app).
  rewrite D1, D2.
  assert (I : forall z, (0 <= z <= 2147483647)%Z -> (int64_min <= z <= int64_max)%Z) by (unfold int64_min, int64_max; lia).
  assert (J : forall z, (0 <= z <= 2147483647)%Z -> to_int32 z = z) by (intros; apply to_int32_id; unfold in_int32; lia).
  assert (K : string_to_int A = a). { unfold A. rewrite <- (app_nil_r (print_int a)). apply string_to_int_print; [by apply I|done]. }
  assert (K3 : string_to_int (C ++ X) = c).
  { unfold C. apply string_to_int_print; [by apply I|]. by destruct HX as [[-> _]| ->]. }
  assert (K2 : string_to_int (take (length A + 1 + length B) (B ++ $"." ++ C ++ X)) = b).
  { rewrite take_app_ge by lia. unfold B. apply string_to_int_print; [by apply I|].
    destruct (length A + 1 + length (print_int b) - length (print_int b))%nat eqn:E; [lia|done]. }
  rewrite K, K2, K3, !J by done. done.
Qed.
Example C42_case : printable (Version 1 2 3 ($"alpha-1.x") ($"00-1")) /\
  print_version (Version 1 2 3 ($"alpha-1.x") ($"00-1")) = $"1.2.3-alpha-1.x+00-1" /\
  lib_print (Version 1 2 3 ($"rc") []) = $"1.2.3-rc".
Proof.
  split; [|by vm_compute]. unfold printable, in_int32. cbn [v_major v_minor v_bugfix v_label v_meta]. split_and!; try lia.
  apply find_first_None. by vm_compute.
Qed.

(** ** C43 *)
Definition same_numbers (a b : version) : Prop :=
  v_major a = v_major b /\ v_minor a = v_minor b /\ v_bugfix a = v_bugfix b.
Definition numbers_less (a b : version) : Prop :=
  (v_major a < v_major b)%Z \/
  (v_major a = v_major b /\ ((v_minor a < v_minor b)%Z \/
     (v_minor a = v_minor b /\ (v_bugfix a < v_bugfix b)%Z))).

Lemma version_ltb_spec a b : version_ltb a b = true <->
  numbers_less a b \/ (same_numbers a b /\
    ((v_label a = v_label b /\ str_ltb (v_meta a) (v_meta b) = true) \/ (v_label a <> v_label b /\ v_label a <> []))).
Proof.
  unfold version_ltb, numbers_less, same_numbers.
  destruct (Z.eqb_spec (v_major a) (v_major b)); [|rewrite Z.ltb_lt; naive_solver lia].
  destruct (Z.eqb_spec (v_minor a) (v_minor b)); [|rewrite Z.ltb_lt; naive_solver lia].
  destruct (Z.eqb_spec (v_bugfix a) (v_bugfix b)); [|rewrite Z.ltb_lt; naive_solver lia].
  destruct (str_eqb_spec (v_label a) (v_label b)).
  - split; [intros; right; naive_solver|]. intros [?|[_ [?|?]]]; naive_solver lia.
  - rewrite negb_true_iff, bool_decide_eq_false. split; [intros; right; naive_solver|].
    intros [?|[_ [?|?]]]; naive_solver lia.
Qed.

(** The numbers decide first, a release is newer than its pre-releases, no version is older than itself. *)
Theorem C43_numbers_and_prereleases a b :
  (numbers_less a b -> version_ltb a b = true /\ version_ltb b a = false) /\
  (same_numbers a b -> v_label a <> [] -> v_label b = [] -> version_ltb a b = true /\ version_ltb b a = false) /\
  version_ltb a a = false.
Proof.
  assert (Hn : forall x y, numbers_less x y -> ~ numbers_less y x) by (unfold numbers_less; intros; lia).
  assert (Hs : forall x y, numbers_less x y -> ~ same_numbers y x) by (unfold numbers_less, same_numbers; intros; lia).
  split_and!.
  - intros H. rewrite version_ltb_spec. split; [by left|]. apply not_true_iff_false. rewrite version_ltb_spec.
    intros [?|[? _]]; [by eapply Hn|by eapply Hs].
  - intros H Ha Hb. rewrite version_ltb_spec. split; [right; split; [done|]; right; split; congruence|].
    apply not_true_iff_false. rewrite version_ltb_spec. intros [?|[_ [[? _]|[_ ?]]]].
    + unfold numbers_less, same_numbers in *. lia.
    + congruence.
    + done.
  - apply not_true_iff_false. rewrite version_ltb_spec. intros [?|[_ [[_ ?]|[? _]]]].
    + by eapply Hn.
    + by rewrite str_ltb_irrefl in *.
    + done.
Qed.
(** Two different labels are each older than the other: neither asymmetric nor transitive. *)
Theorem C43_labels_refuted : forall x y, x <> y -> x <> [] -> y <> [] -> forall a b c m,
  version_ltb (Version a b c x m) (Version a b c y m) = true /\
  version_ltb (Version a b c y m) (Version a b c x m) = true /\
  version_ltb (Version a b c x m) (Version a b c x m) = false.
Proof.
  intros x y Hxy Hx Hy a b c m. rewrite !version_ltb_spec. unfold same_numbers. cbn [v_major v_minor v_bugfix v_label v_meta].
  split; [naive_solver|]. split; [naive_solver|]. apply not_true_iff_false. rewrite version_ltb_spec.
  unfold numbers_less. cbn. intros [?|[_ [[_ ?]|[? _]]]]; [lia|by rewrite str_ltb_irrefl in *|done].
Qed.
(** Among versions that carry no label or one and the same label, the order is strict and total. *)
Theorem C43_strict_order_partial L a b c :
  (v_label a = [] \/ v_label a = L) -> (v_label b = [] \/ v_label b = L) -> (v_label c = [] \/ v_label c = L) ->
  (version_ltb a b = true -> version_ltb b a = false) /\
  (version_ltb a b = true -> version_ltb b c = true -> version_ltb a c = true) /\
  (version_ltb a b = false -> version_ltb b a = false -> version_eqb a b = true).
Proof.
  intros Ha Hb Hc. split_and!.
  - intros H. apply not_true_iff_false. revert H. rewrite !version_ltb_spec. unfold numbers_less, same_numbers.
    intros [?|[? [[? H]|[? ?]]]] [?|[? [[? H']|[? ?]]]]; try lia; try congruence.
    + by rewrite (str_ltb_asym _ _ H) in H'.
    + destruct Ha, Hb; congruence.
  - rewrite !version_ltb_spec. unfold numbers_less, same_numbers.
    intros [?|[? [[? H]|[? ?]]]] [?|[? [[? H']|[? ?]]]]; try (left; lia).
    + right. split; [lia|]. left. split; [congruence|by eapply str_ltb_trans].
    + right. split; [lia|]. right. split; congruence.
    + right. split; [lia|]. right. split; congruence.
    + destruct Ha, Hb, Hc; congruence.
  - intros H1 H2. apply not_true_iff_false in H1, H2. rewrite version_ltb_spec in H1, H2.
    unfold numbers_less, same_numbers in *.
    assert (v_major a = v_major b /\ v_minor a = v_minor b /\ v_bugfix a = v_bugfix b) as (E1&E2&E3) by lia.
    assert (E4 : v_label a = v_label b).
    { destruct (decide (v_label a = v_label b)); [done|]. destruct (decide (v_label a = [])), (decide (v_label b = [])).
      - congruence.
      - exfalso. apply H2. right. split; [lia|]. right. split; congruence.
      - exfalso. apply H1. right. split; [lia|]. right. split; congruence.
      - destruct Ha, Hb; congruence. }
    assert (E5 : v_meta a = v_meta b).
    { apply str_ltb_total; apply not_true_iff_false; intros E; [apply H1|apply H2]; right; (split; [lia|]); left; split; congruence. }
    unfold version_eqb. rewrite E1, E2, E3, E4, E5, !Z.eqb_refl, !str_eqb_refl. done.
Qed.
(** The Slang library compares labels properly: a strict total order on versions whose label is empty or
    counts as true. *)
Definition good_label (v : version) : Prop := v_label v = [] \/ string_to_bool (v_label v) = true.
Lemma truthy_nil : truthy [] = false.
Proof. by vm_compute. Qed.
Lemma good_truthy v : good_label v -> truthy (v_label v) = negb (bool_decide (v_label v = [])).
Proof.
  intros [H|H]; unfold truthy; [by rewrite H|].
  rewrite H. rewrite bool_decide_false; [done|]. intros E. rewrite E in H. by vm_compute in H.
Qed.
(** Labels: the empty label is the greatest. *)
Definition label_less (x y : str) : Prop := x <> [] /\ (y = [] \/ str_ltb x y = true).
Lemma lib_ltb_spec a b : good_label a -> good_label b -> lib_ltb a b = true <->
  numbers_less a b \/ (same_numbers a b /\
    ((v_label a = v_label b /\ str_ltb (v_meta a) (v_meta b) = true) \/ (v_label a <> v_label b /\ label_less (v_label a) (v_label b)))).
Proof.
  intros Ga Gb. unfold lib_ltb, numbers_less, same_numbers. rewrite !good_truthy by done.
  destruct (Z.eqb_spec (v_major a) (v_major b)); [|rewrite Z.ltb_lt; naive_solver lia].
  destruct (Z.eqb_spec (v_minor a) (v_minor b)); [|rewrite Z.ltb_lt; naive_solver lia].
  destruct (Z.eqb_spec (v_bugfix a) (v_bugfix b)); [|rewrite Z.ltb_lt; naive_solver lia].
  destruct (str_eqb_spec (v_label a) (v_label b)).
  - split; [intros; right; naive_solver|]. intros [?|[_ [?|?]]]; naive_solver lia.
  - unfold label_less. destruct (bool_decide_reflect (v_label a = [])) as [Ea|Ea], (bool_decide_reflect (v_label b = [])) as [Eb|Eb]; cbn [negb andb].
    + congruence.
    + split; [done|]. intros [?|[_ [?|?]]]; naive_solver lia.
    + split; [intros _; right; naive_solver|done].
    + split; [intros; right; naive_solver|]. intros [?|[_ [?|?]]]; naive_solver lia.
Qed.
Lemma label_less_trans x y z : label_less x y -> label_less y z -> label_less x z.
Proof.
  intros [H1 [->|H2]] [H3 [->|H4]]; try done; split; auto. right. by eapply str_ltb_trans.
Qed.
Lemma label_less_irrefl x : ~ label_less x x.
Proof. intros [H [->|H2]]; [done|]. by rewrite str_ltb_irrefl in H2. Qed.

Theorem C43_library_strict_order a b c : good_label a -> good_label b -> good_label c ->
  lib_ltb a a = false /\
  (lib_ltb a b = true -> lib_ltb b a = false) /\
  (lib_ltb a b = true -> lib_ltb b c = true -> lib_ltb a c = true) /\
  (lib_ltb a b = false -> lib_ltb b a = false -> a = b).
Proof.
  intros Ga Gb Gc. split_and!.
  - apply not_true_iff_false. rewrite lib_ltb_spec by done. unfold numbers_less, same_numbers.
    intros [?|[? [[? H]|[? ?]]]]; [lia|by rewrite str_ltb_irrefl in H|done].
  - intros H. apply not_true_iff_false. revert H. rewrite !lib_ltb_spec by done. unfold numbers_less, same_numbers.
    intros [?|[? [[? H]|[? K]]]] [?|[? [[? H']|[? K']]]]; try lia; try congruence.
    + by rewrite (str_ltb_asym _ _ H) in H'.
    + by apply (label_less_irrefl (v_label a)), (label_less_trans _ (v_label b)).
  - rewrite !lib_ltb_spec by done. unfold numbers_less, same_numbers.
    intros [?|[? [[? H]|[? K]]]] [?|[? [[? H']|[? K']]]]; try (left; lia); right; (split; [lia|]).
    + left. split; [congruence|by eapply str_ltb_trans].
    + right. split; congruence.
    + right. split; congruence.
    + assert (label_less (v_label a) (v_label c)) by (by eapply label_less_trans).
      right. split; [|done]. intros E. rewrite E in *. by eapply label_less_irrefl.
  - intros H1 H2. apply not_true_iff_false in H1, H2. rewrite lib_ltb_spec in H1, H2 by done.
    unfold numbers_less, same_numbers in *.
    assert (v_major a = v_major b /\ v_minor a = v_minor b /\ v_bugfix a = v_bugfix b) as (E1&E2&E3) by lia.
    assert (E4 : v_label a = v_label b).
    { destruct (decide (v_label a = v_label b)) as [|Hne]; [done|]. exfalso.
      destruct (decide (v_label a = [])) as [Ea|Ea]; [apply H2; right; split; [lia|]; right; split; [done|]; split; [congruence|by left]|].
      destruct (decide (v_label b = [])) as [Eb|Eb]; [apply H1; right; split; [lia|]; right; split; [done|]; split; [congruence|by left]|].
      destruct (str_ltb (v_label a) (v_label b)) eqn:L1; [apply H1; right; split; [lia|]; right; split; [done|]; by split; auto|].
      destruct (str_ltb (v_label b) (v_label a)) eqn:L2; [apply H2; right; split; [lia|]; right; split; [done|]; by split; auto|].
      by apply Hne, str_ltb_total. }
    assert (E5 : v_meta a = v_meta b).
    { apply str_ltb_total; apply not_true_iff_false; intros E; [apply H1|apply H2]; right; (split; [lia|]); left; split; congruence. }
    destruct a, b; cbn in *; congruence.
Qed.
(** operator> is operator< with the sides swapped. *)
Theorem C43_library_greater a b : lib_gtb a b = lib_ltb b a.
Proof.
  unfold lib_gtb, lib_ltb. rewrite (Z.eqb_sym (v_major a)), (Z.eqb_sym (v_minor a)), (Z.eqb_sym (v_bugfix a)).
  assert (str_eqb (v_label a) (v_label b) = str_eqb (v_label b) (v_label a)) as ->.
  { destruct (str_eqb_spec (v_label a) (v_label b)), (str_eqb_spec (v_label b) (v_label a)); congruence. }
  rewrite (andb_comm (truthy (v_label a))), (andb_comm (truthy (v_label b)) (negb _)). done.
Qed.
(** The label "false" counts as no label: 1.0.0-false and 1.0.0 are not ordered. *)
Theorem C43_library_false_label_refuted : exists a b, a <> b /\ lib_ltb a b = false /\ lib_ltb b a = false.
Proof. exists (Version 1 0 0 ($"false") []), (Version 1 0 0 [] []). by vm_compute. Qed.
(** The successors are newer (labels of the successor are empty). *)
Theorem C43_next_is_newer v w : next_bugfix v = Ok w \/ next_minor v = Ok w \/ next_major v = Ok w ->
  version_ltb v w = true /\ lib_ltb v w = true.
Proof.
  intros H.
  assert (numbers_less v w) as Hn.
  { unfold next_bugfix, next_minor, next_major in H. unfold numbers_less.
    destruct H as [H|[H|H]]; (destruct (_ =? _)%Z; [done|]); injection H as <-; cbn; lia. }
  split; [rewrite version_ltb_spec; by left|].
  unfold lib_ltb. unfold numbers_less in Hn.
  destruct (Z.eqb_spec (v_major v) (v_major w)); [|apply Z.ltb_lt; lia].
  destruct (Z.eqb_spec (v_minor v) (v_minor w)); [|apply Z.ltb_lt; lia].
  destruct (Z.eqb_spec (v_bugfix v) (v_bugfix w)); [lia|apply Z.ltb_lt; lia].
Qed.
(** ... and they are the smallest ones: no version lies between a version and its next bugfix version,
    between it and its next minor version except those with the same major and minor number, or between
    it and its next major version except those with the same major number. They are releases. *)
Theorem C43_next_is_least v w u : (0 <= v_minor u)%Z -> (0 <= v_bugfix u)%Z ->
  (next_bugfix v = Ok w -> v_label w = [] /\ v_meta w = [] /\ (numbers_less v u -> same_numbers w u \/ numbers_less w u)) /\
  (next_minor v = Ok w -> v_label w = [] /\ v_meta w = [] /\
     (numbers_less v u -> ~ (v_major u = v_major v /\ v_minor u = v_minor v) -> same_numbers w u \/ numbers_less w u)) /\
  (next_major v = Ok w -> v_label w = [] /\ v_meta w = [] /\
     (numbers_less v u -> v_major u <> v_major v -> same_numbers w u \/ numbers_less w u)).
Proof.
  intros U1 U2. unfold next_bugfix, next_minor, next_major, numbers_less, same_numbers.
  split; [|split]; (destruct (_ =? _)%Z; [discriminate|]); intros [= <-]; cbn; (split; [done|]; split; [done|]); intros; lia.
Qed.
Print Assumptions C43_next_is_least.
Example C43_next_is_least_case : next_minor (Version 1 2 3 ($"rc") []) = Ok (Version 1 3 0 [] []).
Proof. by vm_compute. Qed.
Example C43_case : version_ltb (Version 1 2 3 ($"rc") []) (Version 1 2 3 [] []) = true /\
  lib_ltb (Version 1 2 3 ($"alpha") []) (Version 1 2 3 ($"beta") []) = true /\
  good_label (Version 1 2 3 ($"alpha") []) /\
  next_bugfix (Version 1 2 3 ($"alpha") []) = Ok (Version 1 2 4 [] []).
Proof. split; [by vm_compute|]. split; [by vm_compute|]. split; [right; by vm_compute|by vm_compute]. Qed.

Print Assumptions C42_parse_print.
Print Assumptions C42_parsed_roundtrip.
Print Assumptions C42_parsed_roundtrip_overflow_refuted.
Print Assumptions C42_library.
Print Assumptions C43_numbers_and_prereleases.
Print Assumptions C43_labels_refuted.
Print Assumptions C43_strict_order_partial.
Print Assumptions C43_library_strict_order.
Print Assumptions C43_library_greater.
Print Assumptions C43_library_false_label_refuted.
Print Assumptions C43_next_is_newer.
