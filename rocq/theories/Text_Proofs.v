From Verif Require Import Base Text_Model.

Lemma in_upto n k : (n <= k)%nat -> In n (seq 0 (S k)).
Proof. rewrite in_seq. lia. Qed.

(** Facts about all 256 characters, by computation. *)
Definition all_chars : list ascii := map ascii_of_nat (seq 0 256).
Lemma char_in c : In c all_chars.
Proof.
  unfold all_chars. apply in_map_iff. exists (nat_of_ascii c). split; [apply ascii_nat_embedding|].
  apply in_seq. pose proof (nat_ascii_bounded c). lia.
Qed.
Lemma char_forall (P : ascii -> bool) : forallb P all_chars = true -> forall c, P c = true.
Proof. intros H c. rewrite forallb_forall in H. apply H, char_in. Qed.

(** ** Digits *)
Lemma digit_chr_ok d : (d < 10)%N -> is_digit (digit_chr d) = true /\ digit_val (digit_chr d) = d.
Proof.
  intros H. assert (d = 0 \/ d = 1 \/ d = 2 \/ d = 3 \/ d = 4 \/ d = 5 \/ d = 6 \/ d = 7 \/ d = 8 \/ d = 9)%N as Hd by lia.
  destruct Hd as [->|[->|[->|[->|[->|[->|[->|[->|[->| ->]]]]]]]]]; by vm_compute.
Qed.

Lemma parse_digits_app l : forall a rest, Forall (fun c => is_digit c = true) l ->
  parse_digits a (l ++ rest) = parse_digits (fold_left (fun a c => a * 10 + digit_val c)%N l a) rest.
Proof.
  induction l as [|c l IH]; intros a rest H; [done|]. inversion H as [|? ? Hc Hl]; subst.
  cbn [app parse_digits fold_left]. rewrite Hc. by apply IH.
Qed.

Lemma digits_fuel_ok f : forall n, (n < 2 ^ N.of_nat f)%N ->
  Forall (fun c => is_digit c = true) (digits_fuel (S f) n) /\
  fold_left (fun a c => a * 10 + digit_val c)%N (digits_fuel (S f) n) 0%N = n /\
  digits_fuel (S f) n <> [].
Proof.
  induction f as [|f IH]; intros n Hn.
  - assert (n = 0)%N as -> by (cbn in Hn; lia). split; [repeat constructor|]. by vm_compute.
  - remember (S f) as g. cbn [digits_fuel]. destruct (N.ltb_spec n 10).
    + destruct (digit_chr_ok n ltac:(lia)) as [H1 H2]. split; [by repeat constructor|]. split; [|done].
      cbn [fold_left]. rewrite H2. lia.
    + assert (Hd : (n / 10 < 2 ^ N.of_nat f)%N).
      { subst g. rewrite Nat2N.inj_succ, N.pow_succ_r' in Hn.
        apply N.div_lt_upper_bound; lia. }
      destruct (IH _ Hd) as (H1&H2&H3). subst g.
      destruct (digit_chr_ok (n mod 10)) as [H4 H5]; [apply N.mod_lt; lia|].
      split; [apply Forall_app; split; [done|by repeat constructor]|]. split; [|by destruct (digits_fuel (S f) (n / 10))].
      rewrite fold_left_app. rewrite H2. cbn [fold_left]. rewrite H5. rewrite (N.div_mod n 10) at 3 by lia. lia.
Qed.

Lemma size_nat_bound n : (n < 2 ^ N.of_nat (N.size_nat n))%N.
Proof.
  destruct n as [|p]; [by vm_compute|]. cbn [N.size_nat].
  induction p as [p IH|p IH|]; cbn [Pos.size_nat].
  - rewrite Nat2N.inj_succ, N.pow_succ_r'. lia.
  - rewrite Nat2N.inj_succ, N.pow_succ_r'. lia.
  - by vm_compute.
Qed.

Lemma digits_ok n : Forall (fun c => is_digit c = true) (digits n) /\
  fold_left (fun a c => a * 10 + digit_val c)%N (digits n) 0%N = n /\ digits n <> [].
Proof. apply digits_fuel_ok, size_nat_bound. Qed.

Definition no_digit_first (s : str) : Prop :=
  match s with c :: _ => is_digit c = false | [] => True end.

Lemma parse_digits_print n rest : no_digit_first rest -> parse_digits 0 (digits n ++ rest) = n.
Proof.
  intros H. destruct (digits_ok n) as (H1&H2&_). rewrite parse_digits_app by done. rewrite H2.
  destruct rest as [|c rest]; [done|]. cbn in *. by rewrite H.
Qed.

Lemma digit_not_space c : is_digit c = true -> is_space c = false.
Proof.
  intros H. pose proof (char_forall (fun c => negb (is_digit c) || negb (is_space c)) ltac:(by vm_compute) c) as F.
  cbn in F. rewrite H in F. by destruct (is_space c).
Qed.
Lemma digit_not c n : is_digit c = true -> (n < 48 \/ 57 < n)%nat -> (n < 256)%nat -> c <> chr n.
Proof.
  intros H Hn H2 ->. unfold is_digit, chr in H. rewrite nat_ascii_embedding in H by lia.
  apply andb_true_iff in H as [H1 H3]. apply Nat.leb_le in H1, H3. lia.
Qed.

Lemma string_to_int_print z rest : (int64_min <= z <= int64_max)%Z -> no_digit_first rest ->
  string_to_int (print_int z ++ rest) = z.
Proof.
  intros Hz Hr.
  assert (Hpos : forall n, (Z.of_N n <= int64_max)%Z -> string_to_int (digits n ++ rest) = Z.of_N n).
  { intros n Hn. pose proof (parse_digits_print n rest Hr) as Hp. destruct (digits_ok n) as (H1&_&H3).
    unfold string_to_int. destruct (digits n) as [|c l] eqn:E; [done|]. cbn [app] in *.
    apply Forall_cons in H1 as [Hc _]. cbn [skip_space]. rewrite digit_not_space by done.
    rewrite bool_decide_false by (apply digit_not; [done|lia|lia]).
    rewrite bool_decide_false by (apply digit_not; [done|lia|lia]).
    rewrite Hp. unfold clamp64, int64_min, int64_max in *. lia. }
  destruct z as [|p|p]; cbn [print_int].
  - rewrite Hpos; [done|]. unfold int64_max. lia.
  - rewrite Hpos; [done|]. cbn [Z.to_N]. lia.
  - cbn [app]. unfold string_to_int. cbn [skip_space]. replace (is_space (chr 45)) with false by done.
    rewrite bool_decide_true by done. rewrite parse_digits_print by done.
    unfold clamp64, int64_min, int64_max in *. lia.
Qed.

Lemma print_int_chars z c : c ∈ print_int z -> c = chr 45 \/ is_digit c = true.
Proof.
  assert (H : forall n, c ∈ digits n -> is_digit c = true).
  { intros n Hc. destruct (digits_ok n) as (H1&_). rewrite Forall_forall in H1. auto. }
  destruct z; cbn [print_int]; [eauto|eauto|]. rewrite elem_of_cons. intros [->|Hc]; [by left|eauto].
Qed.
Lemma print_int_nonneg_chars z c : (0 <= z)%Z -> c ∈ print_int z -> is_digit c = true.
Proof.
  intros Hz. assert (H : forall n, c ∈ digits n -> is_digit c = true).
  { intros n Hc. destruct (digits_ok n) as (H1&_). rewrite Forall_forall in H1. auto. }
  destruct z; cbn [print_int]; [eauto|eauto|lia].
Qed.

(** ** Splitting *)
Lemma find_first_None c s : find_first c s = None <-> c ∉ s.
Proof.
  induction s as [|x s IH]; cbn; [split; [intros _; apply not_elem_of_nil|done]|].
  rewrite not_elem_of_cons. destruct (bool_decide_reflect (x = c)) as [->|Hne]; [naive_solver|].
  destruct (find_first c s); cbn; naive_solver.
Qed.
Lemma find_first_app c p q : c ∉ p -> find_first c (p ++ c :: q) = Some (length p).
Proof.
  induction p as [|x p IH]; cbn; intros H; [by rewrite bool_decide_true|].
  apply not_elem_of_cons in H as [H1 H2]. rewrite bool_decide_false by done. by rewrite IH.
Qed.
Lemma find_first_Some c s i : find_first c s = Some i -> s = take i s ++ c :: drop (S i) s /\ c ∉ take i s.
Proof.
  revert i. induction s as [|x s IH]; intros i; cbn [find_first]; [done|].
  destruct (bool_decide_reflect (x = c)) as [->|Hne].
  - intros [= <-]. cbn. split; [by rewrite drop_0|apply not_elem_of_nil].
  - destruct (find_first c s) as [j|]; [|done]. intros [= <-]. destruct (IH j eq_refl) as [H1 H2].
    cbn [take drop app]. split; [by f_equal|]. apply not_elem_of_cons. split; [congruence|done].
Qed.
Lemma split_by_app c p q : c ∉ p -> split_by (p ++ c :: q) c = (p, q).
Proof.
  intros H. unfold split_by. rewrite find_first_app by done.
  rewrite take_app. f_equal. change (c :: q) with ([c] ++ q).
  rewrite (assoc_L (++)). rewrite drop_app_alt; [done|]. rewrite app_length. cbn. lia.
Qed.
Lemma split_by_none c s : c ∉ s -> split_by s c = (s, []).
Proof. intros H. unfold split_by. by rewrite (proj2 (find_first_None c s) H). Qed.

(** ** Trimming *)
Lemma mem_spec c t : mem c t = true <-> c ∈ t.
Proof. unfold mem. apply bool_decide_eq_true. Qed.
Lemma trim_left_split t s : exists l, s = l ++ trim_left t s /\ Forall (fun c => c ∈ t) l.
Proof.
  induction s as [|c s (l&IH1&IH2)]; cbn; [by exists []|].
  destruct (mem c t) eqn:E; [|by exists []].
  exists (c :: l). split; [cbn; by f_equal|]. constructor; [by apply mem_spec|done].
Qed.
Lemma trim_left_head t s c w : trim_left t s = c :: w -> c ∉ t.
Proof.
  induction s as [|x s IH]; cbn; [done|]. destruct (mem x t) eqn:E; [done|].
  intros [= <- <-] H. apply mem_spec in H. congruence.
Qed.
Lemma trim_left_id t s : (forall c w, s = c :: w -> c ∉ t) -> trim_left t s = s.
Proof.
  destruct s as [|c s]; [done|]. intros H. cbn. destruct (mem c t) eqn:E; [|done].
  apply mem_spec in E. by destruct (H c s eq_refl).
Qed.
Lemma trim_left_app t l w : Forall (fun c => c ∈ t) l -> trim_left t (l ++ w) = trim_left t w.
Proof.
  induction 1 as [|c l Hc Hl IH]; [done|]. cbn. by rewrite (proj2 (mem_spec c t) Hc).
Qed.
