(** Values of the specification and objects of the interpreter: notation of numbers, order of texts, operations. *)
From Coq Require Import Floats.SpecFloat DecimalString DecimalZ DecimalN DecimalFacts Decimal.
From Verif Require Import Base Base_Proofs Text_Model Text_Proofs Tok_Model TypeTable TypeSys_Model Value_Model Parse_Model Parse_Spec Decl_Model Decl_Spec Stmt_Model Stmt_Spec Interp_Model Run_Model Run_Spec.

Definition obj_of (v : val) : obj :=
  match v with VInt z => mk t_int (AInt z) | VBool b => mk t_bool (ABool b) | VText s => mk t_string (AStr s) end.

Lemma obj_of_inj u v : obj_of u = obj_of v -> u = v.
Proof. destruct u, v; unfold obj_of, mk; intros H; inversion H; reflexivity. Qed.
Lemma obj_type v t : has_type v t -> o_type (obj_of v) = type_word t.
Proof. by destruct v, t. Qed.
Lemma obj_default t : default_obj (type_word t) = obj_of (default t).
Proof. by destruct t. Qed.
Lemma default_type t : has_type (default t) t.
Proof. destruct t; cbn; unfold fits; try done; lia. Qed.
Lemma is_true_bool b : is_true (obj_of (VBool b)) = b.
Proof. done. Qed.

(** ** Numbers *)
Lemma digit_is c : digit c = if is_digit c then Some (Z.of_N (digit_val c)) else None.
Proof.
  unfold digit, is_digit, digit_val. cbv zeta.
  assert (Hc : N_of_ascii c = N.of_nat (nat_of_ascii c)) by (unfold nat_of_ascii; lia). rewrite Hc.
  destruct ((48 <=? nat_of_ascii c)%nat) eqn:A; destruct ((nat_of_ascii c <=? 57)%nat) eqn:B; cbn [andb];
    destruct ((48 <=? Z.of_nat (nat_of_ascii c))%Z) eqn:C; destruct ((Z.of_nat (nat_of_ascii c) <=? 57)%Z) eqn:D; cbn [andb];
    rewrite ?Nat.leb_le, ?Nat.leb_gt, ?Z.leb_le, ?Z.leb_gt in *; try (exfalso; lia); try reflexivity.
  f_equal. lia.
Qed.
Lemma number_from_digits s : forall a z, number_from (Z.of_N a) s = Some z ->
  Forall (fun c => is_digit c = true) s /\ Z.of_N (parse_digits a s) = z.
Proof.
  induction s as [|c s IH]; intros a z; cbn [number_from parse_digits]; [intros [= <-]; by split|].
  rewrite digit_is. destruct (is_digit c) eqn:D; [|done]. intros H.
  replace (10 * Z.of_N a + Z.of_N (digit_val c))%Z with (Z.of_N (a * 10 + digit_val c)) in H by lia.
  destruct (IH _ _ H) as [F E]. split; [by constructor|done].
Qed.
Lemma number_literal s z : number s = Some z -> (z <= 2147483647)%Z -> string_to_int s = z /\ fits z.
Proof.
  unfold number. destruct s as [|c s]; [done|]. intros H Hz. pose proof (number_from_digits (c :: s) 0 z H) as [F E].
  assert (Hc : is_digit c = true) by by inversion F.
  unfold string_to_int. cbn [skip_space]. rewrite (digit_not_space c Hc).
  rewrite !bool_decide_eq_false_2 by (apply digit_not; [done|lia|lia]).
  rewrite E. assert (0 <= z)%Z by lia. unfold clamp64, int64_min, int64_max, fits. lia.
Qed.
Lemma in_range_fits z : in_range 32 z = true <-> fits z.
Proof. unfold in_range, fits. change (2 ^ (32 - 1))%Z with 2147483648%Z. rewrite andb_true_iff, Z.leb_le, Z.ltb_lt. lia. Qed.
Lemma wrap_fits z : fits z -> wrap 32 z = z.
Proof.
  unfold wrap, fits. change (2 ^ (32 - 1))%Z with 2147483648%Z. change (2 ^ 32)%Z with 4294967296%Z. intros H.
  rewrite Z.mod_small; lia.
Qed.

(** Decimal notation *)
Definition chr_digit (d : N) : uint -> uint :=
  match d with 0 => D0 | 1 => D1 | 2 => D2 | 3 => D3 | 4 => D4 | 5 => D5 | 6 => D6 | 7 => D7 | 8 => D8 | _ => D9 end%N.
Fixpoint snoc (u : uint) (d : N) : uint :=
  match u with
  | Nil => chr_digit d Nil
  | D0 u => D0 (snoc u d) | D1 u => D1 (snoc u d) | D2 u => D2 (snoc u d) | D3 u => D3 (snoc u d) | D4 u => D4 (snoc u d)
  | D5 u => D5 (snoc u d) | D6 u => D6 (snoc u d) | D7 u => D7 (snoc u d) | D8 u => D8 (snoc u d) | D9 u => D9 (snoc u d)
  end.
Ltac tens d := 
  let H := fresh in assert (H : (d = 0 \/ d = 1 \/ d = 2 \/ d = 3 \/ d = 4 \/ d = 5 \/ d = 6 \/ d = 7 \/ d = 8 \/ d = 9)%N) by lia;
  repeat (destruct H as [->|H]; [|]); [.. | rewrite H in *].
Lemma snoc_acc u d : (d < 10)%N -> forall a, Npos (Pos.of_uint_acc (snoc u d) a) = (10 * Npos (Pos.of_uint_acc u a) + d)%N.
Proof.
  intros Hd. induction u; intros a; cbn [snoc Pos.of_uint_acc]; [|apply IHu..].
  tens d; cbn [chr_digit Pos.of_uint_acc]; lia.
Qed.
Lemma snoc_value u d : (d < 10)%N -> N.of_uint (snoc u d) = (10 * N.of_uint u + d)%N.
Proof.
  intros Hd. unfold N.of_uint. induction u; cbn [snoc Pos.of_uint]; [|exact IHu|apply snoc_acc; exact Hd..].
  tens d; reflexivity.
Qed.
Definition text_of_uint (u : uint) : str := String.list_ascii_of_string (NilEmpty.string_of_uint u).
Lemma text_snoc u d : (d < 10)%N -> text_of_uint (snoc u d) = text_of_uint u ++ [digit_chr d].
Proof.
  intros Hd. unfold text_of_uint. induction u; cbn [snoc NilEmpty.string_of_uint String.list_ascii_of_string app]; [|congruence..].
  tens d; reflexivity.
Qed.

Lemma snoc_norm u d : (d < 10)%N -> unorm u = u -> N.of_uint u <> 0%N -> unorm (snoc u d) = snoc u d.
Proof.
  intros Hd. destruct u; cbn [snoc]; try reflexivity; [by intros _ []|].
  intros H1 H2. exfalso. apply H2. rewrite <- H1 in H2 |- *. clear H2.
  cbn [unorm] in H1. pose proof (unorm_D0 u) as H0. cbn in H0.
  assert (Hz : forall u, (exists v, unorm u = D0 v) -> N.of_uint u = 0%N).
  { clear. intros u. induction u; intros [v H]; cbn in H; try discriminate H; [reflexivity|]. cbn. apply IHu. exists v. exact H. }
  rewrite H1. apply (Hz (D0 u)). exists u. exact H1.
Qed.
Lemma digits_fuel_uint f : forall n, (n < 2 ^ N.of_nat f)%N -> exists u,
  digits_fuel (S f) n = text_of_uint u /\ N.of_uint u = n /\ unorm u = u /\ u <> Nil.
Proof.
  induction f as [|f IH]; intros n Hn.
  - assert (n = 0)%N as -> by (change (2 ^ N.of_nat 0)%N with 1%N in Hn; lia). exists (D0 Nil). by repeat split.
  - remember (S f) as g. cbn [digits_fuel]. destruct (n <? 10)%N eqn:L.
    + apply N.ltb_lt in L. exists (chr_digit n Nil). tens n; (split; [reflexivity|]; split; [reflexivity|]; split; [reflexivity|discriminate]).
    + apply N.ltb_ge in L. subst g. destruct (IH (n / 10)%N) as (u & E1 & E2 & E3 & E4).
      { rewrite Nat2N.inj_succ, N.pow_succ_r' in Hn. apply N.div_lt_upper_bound; lia. }
      assert (Hm : (n mod 10 < 10)%N) by (apply N.mod_lt; lia).
      exists (snoc u (n mod 10)). rewrite E1, text_snoc by done. split; [done|]. split; [|split].
      * rewrite snoc_value by done. rewrite E2. pose proof (N.div_mod n 10). lia.
      * apply snoc_norm; [done|done|]. rewrite E2. assert (1 <= n / 10)%N by (apply N.div_le_lower_bound; lia). lia.
      * by destruct u.
Qed.
Lemma digits_uint n : digits n = String.list_ascii_of_string (NilZero.string_of_uint (N.to_uint n)).
Proof.
  unfold digits. destruct (digits_fuel_uint (N.size_nat n) n (size_nat_bound n)) as (u & -> & E & U & Nn).
  rewrite <- E, DecimalN.Unsigned.to_of, U. unfold NilZero.string_of_uint. by destruct u.
Qed.
Lemma print_decimal z : print_int z = decimal z.
Proof.
  unfold print_int, decimal. destruct z as [|p|p]; [reflexivity| |]; rewrite digits_uint; reflexivity.
Qed.
Lemma show_obj F v : to_std_string F (o_val (obj_of v)) = show v.
Proof. destruct v; cbn; [apply print_decimal|by destruct b|done]. Qed.

(** ** Order of texts *)
Lemma before_ltb s : forall t, str_ltb s t = true <-> before s t.
Proof.
  induction s as [|c s IH]; intros [|d t]; cbn [str_ltb]; try (split; [done|by inversion 1]).
  - split; [constructor|done].
  - assert (Hc : forall c, N_of_ascii c = N.of_nat (nat_of_ascii c)) by (intros; unfold nat_of_ascii; lia).
    rewrite !Hc. destruct (N.of_nat (nat_of_ascii c) <? N.of_nat (nat_of_ascii d))%N eqn:L.
    { apply N.ltb_lt in L. split; [|done]. intros _. apply before_char. lia. }
    apply N.ltb_ge in L. destruct (N.of_nat (nat_of_ascii d) <? N.of_nat (nat_of_ascii c))%N eqn:L2.
    { apply N.ltb_lt in L2. split; [done|]. inversion 1; subst; lia. }
    apply N.ltb_ge in L2. assert (c = d) as ->.
    { rewrite <- (ascii_nat_embedding c), <- (ascii_nat_embedding d). f_equal. lia. }
    rewrite IH. split; [by constructor|]. inversion 1; subst; [lia|done].
Qed.

(** ** Operations *)
Ltac types := repeat match goal with
  | H : has_type ?v _ |- _ => destruct v; cbn [has_type] in H; try (exfalso; exact H)
  end.
Lemma bool_same (b c : bool) (Q : Prop) : (b = true <-> Q) -> (c = true <-> Q) -> b = c.
Proof.
  intros [H1 H2] [H3 H4]. destruct b, c; try reflexivity; [symmetry; apply H4, H1; reflexivity|apply H2, H3; reflexivity].
Qed.
Lemma combine_unique op u w v v' : combine op u w v -> combine op u w v' -> v = v'.
Proof.
  intros H H'. destruct H; inversion H'; subst; try reflexivity; f_equal; eapply bool_same; eassumption.
Qed.
Lemma checked_fits z : fits z -> checked 32 z = Ok z.
Proof. intros H. unfold checked. by rewrite (proj2 (in_range_fits z) H). Qed.
Lemma checked_not z : ~ fits z -> checked 32 z = UB.
Proof. intros H. unfold checked. destruct (in_range 32 z) eqn:X; [|done]. by apply in_range_fits in X. Qed.
Lemma fits_dec z : fits z \/ ~ fits z.
Proof. unfold fits. lia. Qed.
Lemma fits_rem a b : fits a -> fits b -> b <> 0%Z -> fits (Z.rem a b).
Proof. unfold fits. intros. pose proof (Z.rem_bound_abs a b). lia. Qed.

Lemma arith_cases k op t u v : (k = 0 \/ k = 1)%nat -> operation_type k op t u = Some v ->
  (t = TInt /\ u = TInt /\ v = TInt /\ op ∈ [MATH_ADDITION; MATH_SUBTRACT; MATH_MULTIPLY; MATH_DIVIDE; MATH_MODULO]) \/
  (t = TText /\ v = TText /\ op = MATH_ADDITION).
Proof.
  intros [->| ->]; destruct op; cbn [operation_type]; try discriminate; destruct t; try discriminate; destruct u; try discriminate;
    intros [= <-]; first [left; split; [done|split; [done|split; [done|set_solver]]] | right; done].
Qed.

Section Ops.
Context (P : prog).
Notation F := (p_io P).
Lemma int_bin op o z z0 : aop_of op = Some o -> o ∈ [OAdd; OSub; OMul; ODiv; OMod] -> fits z -> fits z0 ->
  bin_value P op (obj_of (VInt z)) (obj_of (VInt z0)) = rbind (int_op W32 o z z0) (fun x => Ok (obj_of (VInt x))).
Proof.
  intros Ho Hin Hz Hz0. unfold bin_value. rewrite Ho. unfold binary_op. cbn [obj_of mk o_type]. change (kind_of t_int) with (KInt W32).
  unfold int_binary. cbn [to_int o_val rbind bits mk]. rewrite !wrap_fits by assumption.
  assert (has_small_ints o || true = true) as -> by apply orb_true_r. 
  repeat (apply elem_of_cons in Hin as [->|Hin]); [..|by inversion Hin];
    match goal with |- context[accepts true ?b ?x] => change (accepts true b x) with true end; cbv iota;
    destruct (int_op W32 _ z z0); reflexivity.
Qed.
Lemma text_join s b u : has_type b u -> bin_value P MATH_ADDITION (obj_of (VText s)) (obj_of b) = Ok (obj_of (VText (s ++ show b))).
Proof.
  intros Hb. unfold bin_value. cbn [aop_of]. unfold binary_op. cbn [obj_of mk o_type]. change (kind_of t_string) with KString.
  unfold string_binary. assert (accepts true true (obj_of b) = true) as -> by by destruct b. rewrite show_obj. reflexivity.
Qed.
Lemma arithmetic k op t u v a b : (k = 0 \/ k = 1)%nat -> operation_type k op t u = Some v -> has_type a t -> has_type b u ->
  (exists w, combine op a b w /\ has_type w v /\ bin_value P op (obj_of a) (obj_of b) = Ok (obj_of w)) \/
  (bin_value P op (obj_of a) (obj_of b) = UB /\ forall w, ~ combine op a b w).
Proof.
  intros Hk Ho Ha Hb. destruct (arith_cases _ _ _ _ _ Hk Ho) as [(-> & -> & -> & Hin)|(-> & -> & ->)].
  2:{ left. destruct a; try contradiction. exists (VText (s ++ show b)). split; [constructor|]. split; [done|]. by eapply text_join. }
  clear Ho. destruct a as [z|?|?]; try contradiction. destruct b as [z0|?|?]; try contradiction. cbn [has_type] in Ha, Hb.
  repeat (apply elem_of_cons in Hin as [->|Hin]); [..|by inversion Hin]; (erewrite int_bin; [|reflexivity|set_solver|assumption|assumption]); cbn [int_op promoted].
  - destruct (fits_dec (z + z0)) as [Hf|Hf]; [left; exists (VInt (z + z0)); split; [by constructor|]; split; [done|]; by rewrite checked_fits|].
    right. split; [by rewrite checked_not|]. intros w. by inversion 1.
  - destruct (fits_dec (z - z0)) as [Hf|Hf]; [left; exists (VInt (z - z0)); split; [by constructor|]; split; [done|]; by rewrite checked_fits|].
    right. split; [by rewrite checked_not|]. intros w. by inversion 1.
  - destruct (fits_dec (z * z0)) as [Hf|Hf]; [left; exists (VInt (z * z0)); split; [by constructor|]; split; [done|]; by rewrite checked_fits|].
    right. split; [by rewrite checked_not|]. intros w. by inversion 1.
  - destruct (Z.eqb_spec z0 0) as [->|Hz]; [right; split; [done|]; intros w; by inversion 1|].
    destruct (fits_dec (Z.quot z z0)) as [Hf|Hf]; [left; exists (VInt (Z.quot z z0)); split; [by constructor|]; split; [done|]; by rewrite checked_fits|].
    right. split; [by rewrite checked_not|]. intros w. by inversion 1.
  - destruct (Z.eqb_spec z0 0) as [->|Hz]; [right; split; [done|]; intros w; by inversion 1|].
    destruct (fits_dec (Z.quot z z0)) as [Hf|Hf]; [left; exists (VInt (Z.rem z z0)); split; [by constructor|]; split; [by apply fits_rem|]; by rewrite (proj2 (in_range_fits _) Hf)|].
    right. split; [|intros w; by inversion 1]. destruct (in_range 32 (Z.quot z z0)) eqn:X; [|done]. by apply in_range_fits in X.
Qed.

Lemma compare_cases op t u v : operation_type 2 op t u = Some v ->
  v = TBool /\ t = u /\ (op = COMPARE_EQUAL \/ op = COMPARE_UNEQUAL \/
    (t <> TBool /\ op ∈ [COMPARE_LESS; COMPARE_LESS_EQUAL; COMPARE_GREATER; COMPARE_GREATER_EQUAL])).
Proof.
  destruct op; cbn [operation_type]; try discriminate.
  all: try (destruct (bool_decide_reflect (t = u)) as [->|]; [intros [= <-]; by auto|discriminate]).
  all: destruct t; try discriminate; destruct u; try discriminate; intros [= <-]; (split; [done|split; [done|right; right; split; [done|set_solver]]]).
Qed.
(** Equality of two values of one type *)
Lemma equal_op t a b : has_type a t -> has_type b t -> compare_op F CEq (obj_of a) (obj_of b) = Ok (bool_decide (a = b)).
Proof.
  intros Ha Hb. destruct t; destruct a as [z|b0|s]; try contradiction; destruct b as [z0|b|s0]; try contradiction; cbn [has_type] in Ha, Hb; unfold compare_op; cbn [obj_of mk o_type].
  - change (kind_of t_int) with (KInt W32). cbn [to_int o_val rbind bits mk].
    match goal with |- context[accepts true true ?x] => change (accepts true true x) with true end. cbv iota. rewrite !wrap_fits by assumption.
    cbn [z_cmp]. f_equal. destruct (Z.eqb_spec z z0) as [->|N]; [by rewrite bool_decide_eq_true_2|rewrite bool_decide_eq_false_2; [done|congruence]].
  - change (kind_of t_bool) with KBool. match goal with |- context[accepts true true ?x] => change (accepts true true x) with true end. cbv iota.
    destruct b0, b; reflexivity.
  - change (kind_of t_string) with KString. match goal with |- context[accepts true true ?x] => change (accepts true true x) with true end. cbv iota.
    cbn [str_cmp to_std_string o_val mk]. unfold str_eqb. f_equal. apply bool_decide_ext. split; [by intros ->|by intros [=]].
Qed.
Lemma order_op c t a b : t <> TBool -> has_type a t -> has_type b t -> c <> CEq -> exists r,
  compare_op F c (obj_of a) (obj_of b) = Ok r /\
  (r = true <-> match c with CLt => below a b | CLe => ~ below b a | CGt => below b a | CGe => ~ below a b | CEq => True end).
Proof.
  intros Ht Ha Hb Hc. destruct t; [|done|]; destruct a as [z|b0|s]; try contradiction; destruct b as [z0|b|s0]; try contradiction; cbn [has_type] in Ha, Hb; unfold compare_op; cbn [obj_of mk o_type].
  - change (kind_of t_int) with (KInt W32). cbn [to_int o_val rbind bits mk].
    match goal with |- context[accepts true true ?x] => change (accepts true true x) with true end. cbv iota. rewrite !wrap_fits by assumption.
    assert (Hbl : forall x y, below (VInt x) (VInt y) <-> (x < y)%Z) by (intros; split; [by inversion 1|by constructor]).
    eexists. split; [reflexivity|]. destruct c; cbn [z_cmp]; [done|..]; rewrite ?Hbl, ?Z.ltb_lt, ?Z.leb_le; lia.
  - change (kind_of t_string) with KString. match goal with |- context[accepts true true ?x] => change (accepts true true x) with true end. cbv iota.
    cbn [to_std_string o_val mk].
    assert (Hbl : forall x y, below (VText x) (VText y) <-> str_ltb x y = true).
    { intros. rewrite before_ltb. split; [by inversion 1|by constructor]. }
    eexists. split; [reflexivity|]. destruct c; cbn [str_cmp]; [done|..]; rewrite ?Hbl, ?negb_true_iff, ?not_true_iff_false; done.
Qed.
Lemma comparison op t u v a b : op <> COMPARE_UNEQUAL -> operation_type 2 op t u = Some v -> has_type a t -> has_type b u -> exists r,
  v = TBool /\ combine op a b (VBool r) /\ eval_boolean F op (obj_of a) (obj_of b) = Ok (obj_of (VBool r)) /\
  op ∉ [AND; OR; NAND; NOR].
Proof.
  intros Hn Ho Ha Hb. destruct (compare_cases _ _ _ _ Ho) as (-> & <- & Hop).
  destruct Hop as [->|[->|(Ht & Hop)]]; [|done|].
  - exists (bool_decide (a = b)). split; [done|]. split; [constructor|]. unfold eval_boolean. rewrite (equal_op t) by done. split; [done|set_solver].
  - clear Ho. repeat (apply elem_of_cons in Hop as [->|Hop]); [..|by inversion Hop].
    + destruct (order_op CLt t a b) as (r & H1 & H2); try done. exists r. split; [done|]. split; [by constructor|]. unfold eval_boolean. rewrite H1. split; [done|set_solver].
    + destruct (order_op CLe t a b) as (r & H1 & H2); try done. exists r. split; [done|]. split; [by constructor|]. unfold eval_boolean. rewrite H1. split; [done|set_solver].
    + destruct (order_op CGt t a b) as (r & H1 & H2); try done. exists r. split; [done|]. split; [by constructor|]. unfold eval_boolean. rewrite H1. split; [done|set_solver].
    + destruct (order_op CGe t a b) as (r & H1 & H2); try done. exists r. split; [done|]. split; [by constructor|]. unfold eval_boolean. rewrite H1. split; [done|set_solver].
Qed.
(** Signs and steps *)
Lemma int_un op z : fits z -> op ∈ [UMinus; UInc; UDec] ->
  unary_op F op (obj_of (VInt z)) =
  rbind (checked 32 (match op with UMinus => - z | UInc => z + 1 | _ => z - 1 end)%Z) (fun x => Ok (obj_of (VInt x))).
Proof.
  intros Hz Hop. repeat (apply elem_of_cons in Hop as [->|Hop]); [..|by inversion Hop]; unfold unary_op; cbn [obj_of mk o_type];
    change (kind_of t_int) with (KInt W32); cbn [to_int o_val rbind bits mk]; rewrite wrap_fits by done; cbn [int_unary promoted];
    [replace (z * -1)%Z with (- z)%Z by lia|..]; destruct (checked 32 _); reflexivity.
Qed.
Lemma not_un b : unary_op F UNot (obj_of (VBool b)) = Ok (obj_of (VBool (negb b))).
Proof. reflexivity. Qed.

(** Assignment of a value of the same type, or into an anonymous object *)
Definition takes (d : obj) (t : ty) : Prop := o_type d = t_anonymous \/ o_type d = type_word t.
Lemma assign_takes d v t : takes d t -> has_type v t -> assign_to P d (obj_of v) = Ok (obj_of v).
Proof.
  intros H Hv. unfold assign_to, assign_op. destruct H as [->| ->]; [by rewrite str_eqb_refl|].
  rewrite (obj_type v t Hv), str_eqb_refl, orb_true_r. done.
Qed.
Lemma takes_anon t : takes anon t.
Proof. by left. Qed.
Lemma takes_obj v t : has_type v t -> takes (obj_of v) t.
Proof. intros H. right. by apply obj_type. Qed.
End Ops.
