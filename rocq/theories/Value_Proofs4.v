From Coq Require Import Floats.SpecFloat.
From Verif Require Import Base Base_Proofs Text_Model Text_Proofs Text_Props Tok_Model Tok_Proofs TypeTable TypeSys_Model Value_Model Value_Spec Value_Proofs Value_Proofs2 Value_Proofs3.

#[global] Instance width_eq_dec : EqDecision width.
Proof. solve_decision. Defined.
#[global] Instance holds_dec t z : Decision (holds t z).
Proof. unfold holds. apply _. Defined.

Section WithIo.
Context (F : fio).

(** ** Comparisons the table admits run *)
Definition cmp_of (op : ttype) : option cmp :=
  match op with
  | COMPARE_EQUAL | COMPARE_UNEQUAL => Some CEq
  | COMPARE_LESS => Some CLt | COMPARE_LESS_EQUAL => Some CLe
  | COMPARE_GREATER => Some CGt | COMPARE_GREATER_EQUAL => Some CGe
  | _ => None
  end.
Definition six : list ttype :=
  [COMPARE_EQUAL; COMPARE_UNEQUAL; COMPARE_LESS; COMPARE_LESS_EQUAL; COMPARE_GREATER; COMPARE_GREATER_EQUAL].
Definition runs (c : cmp) (l r : str) : bool :=
  let o := mk r (AInt 0) in
  match kind_of l with
  | KBool => match c with CEq => accepts true true o | _ => false end
  | KDouble => accepts true false o
  | KFloat => accepts false false o
  | KInt _ | KString => accepts true true o
  | _ => false
  end.
Lemma accepts_mk b s r v w : accepts b s (mk r v) = accepts b s (mk r w).
Proof. done. Qed.
Lemma runs_ok c l r v w : runs c l r = true ->
  (exists b, compare_op F c (mk l v) (mk r w) = Ok b) \/ compare_op F c (mk l v) (mk r w) = UB /\ l ∈ integer_types.
Proof.
  unfold runs. intros H. unfold compare_op. cbn [o_type mk].
  destruct (kind_of l) eqn:K; try discriminate H.
  - destruct c; try discriminate H. rewrite (accepts_mk _ _ _ _ (AInt 0)), H. eauto.
  - rewrite (accepts_mk _ _ _ _ (AInt 0)), H. eauto.
  - rewrite (accepts_mk _ _ _ _ (AInt 0)), H. eauto.
  - rewrite (accepts_mk _ _ _ _ (AInt 0)), H. cbn [o_val mk].
    assert (l ∈ integer_types).
    { clear -K. unfold kind_of in K.
      repeat match type of K with (if str_eqb ?a ?b then _ else _) = _ =>
        destruct (str_eqb_spec a b) as [->|_] end; try discriminate K; unfold integer_types; rewrite !elem_of_cons; auto. }
    destruct (to_int_cases v) as [[x ->]| ->]; [|by right]. cbn [rbind].
    destruct (to_int_cases w) as [[y ->]| ->]; [|by right]. cbn [rbind]. eauto.
  - rewrite (accepts_mk _ _ _ _ (AInt 0)), H. eauto.
Qed.
Definition admitted_deciding (d : defn) : bool :=
  let '(l, op, r, t) := d in
  negb (sdec l value_types) || negb (sdec r value_types) ||
  match cmp_of op with None => true | Some c => runs c l r && str_eqb t t_bool end.
Lemma admitted_deciding_ok : forallb admitted_deciding builtin_defs = true.
Proof. by vm_compute. Qed.

Lemma admitted_runs l op r t c :
  l ∈ value_types -> r ∈ value_types -> cmp_of op = Some c -> get_type builtin_table l op r = Ok t ->
  runs c l r = true /\ t = t_bool.
Proof.
  intros Hl Hr Hc HT. pose proof (builtin_forall _ admitted_deciding_ok _ _ _ _ HT) as A.
  clear HT. unfold admitted_deciding in A.
  rewrite (proj2 (sdec_iff l value_types)), (proj2 (sdec_iff r value_types)), Hc in A by done.
  cbn [negb orb] in A. by rewrite andb_true_iff, str_eqb_eq in A.
Qed.

Lemma deciding_outcome l op r v w :
  l ∈ value_types -> r ∈ value_types -> op ∈ deciding ->
  (op ∈ six -> exists t, get_type builtin_table l op r = Ok t) ->
  benign l (fun o => exists b, o = mk t_bool (ABool b)) (eval_boolean F op (mk l v) (mk r w)).
Proof.
  intros Hl Hr Hop HT.
  destruct (cmp_of op) as [c|] eqn:C.
  - assert (op ∈ six) as H6.
    { clear -C. unfold six. rewrite !elem_of_cons. destruct op; try discriminate C; auto 8. }
    destruct (HT H6) as [t H]. destruct (admitted_runs l op r t c Hl Hr C H) as [R _]. clear H HT.
    pose proof (runs_ok c l r v w R) as O. clear -C O.
    assert (forall b', (exists b, eval_boolean F op (mk l v) (mk r w) = let! x := compare_op F c (mk l v) (mk r w) in Ok (mk t_bool (ABool (xorb b x)))) \/ b' = false) as E.
    { intros b'. left. destruct op; try discriminate C; injection C as <-; cbn [eval_boolean];
        first [exists true; destruct (compare_op F _ _ _) as [[]| | |]; reflexivity | exists false; destruct (compare_op F _ _ _) as [[]| | |]; reflexivity]. }
    destruct (E true) as [[b ->]|]; [|done]. destruct O as [[x ->]|[-> O]]; cbn [rbind benign]; eauto.
  - clear HT. unfold deciding in Hop. rewrite !elem_of_cons, elem_of_nil in Hop.
    destruct Hop as [->|[->|[->|[->|[->|[->|[->|[->|[->|[->|[]]]]]]]]]]]; try discriminate C;
      cbn [eval_boolean]; destruct (is_true _); cbn [negb benign]; eauto.
Qed.

(** ** Assignment and casts *)
Definition value_kind (t : str) : bool := match kind_of t with KVoid | KOther => false | _ => true end.
Lemma value_kind_ok t : t ∈ value_types -> value_kind t = true.
Proof.
  intros H. rewrite <- sdec_iff in H. unfold sdec, value_types in H. cbn [existsb] in H.
  rewrite !orb_true_iff, !str_eqb_eq in H.
  destruct H as [->|[->|[->|[->|[->|[->|[->|H]]]]]]]; [..|done]; by vm_compute.
Qed.
Lemma kind_name t : match kind_of t with
  | KBool => t = t_bool | KDouble => t = t_double | KFloat => t = t_float | KInt w => t = int_name w
  | KString => t = t_string | KVoid => t = t_void | KOther => True end.
Proof.
  unfold kind_of. repeat match goal with |- context [str_eqb ?a ?b] =>
        destruct (str_eqb_spec a b) as [->|_] end; done.
Qed.
Lemma int_name_in w : int_name w ∈ integer_types.
Proof. unfold integer_types. rewrite !elem_of_cons. destruct w; auto. Qed.

Lemma assign_outcome i l r v w :
  l ∈ value_types -> benign l (fun o => o_type o = l /\ o_atomic o = true) (assign_op F i (mk l v) (mk r w)).
Proof.
  intros Hl. unfold assign_op. cbn [o_type mk].
  destruct (str_eqb_spec l t_anonymous) as [->|_].
  { exfalso. apply sdec_iff in Hl. vm_compute in Hl. discriminate. }
  destruct (str_eqb_spec r l) as [->|_]; [done|]. cbn [orb].
  pose proof (kind_name l) as N. pose proof (value_kind_ok l Hl) as V. unfold value_kind in V.
  destruct (kind_of l) eqn:K; try discriminate V; subst l; cbn [benign]; try done.
  cbn [o_val mk]. destruct (to_int_cases w) as [[x ->]| ->]; cbn [rbind benign]; [done|apply int_name_in].
Qed.
Lemma cast_outcome t r w :
  t ∈ value_types -> r ∈ value_types ->
  benign t (fun o => o_type o = t /\ o_atomic o = true) (typecast F (mk r w) t).
Proof.
  intros Ht Hr. unfold typecast. rewrite (accepts_value r w) by done.
  case_bool_decide as E. { subst. apply sdec_iff in Ht. vm_compute in Ht. discriminate. }
  pose proof (kind_name t) as N. pose proof (value_kind_ok t Ht) as V. unfold value_kind in V.
  destruct (kind_of t) eqn:K; try discriminate V; subst t; cbn [benign]; try done.
  cbn [o_val mk]. destruct (to_int_cases w) as [[x ->]| ->]; cbn [rbind benign]; [done|apply int_name_in].
Qed.

(** ** Integer arithmetic *)
Lemma type_width_name w : type_width (int_name w) = bits w.
Proof. unfold type_width. destruct w; cbn [int_name bits]; repeat (destruct (decide _) as [D|D]); try done; try discriminate D. Qed.
Lemma integer_name t : t ∈ integer_types -> exists w, t = int_name w.
Proof. intros H. apply in3 in H as [->|[->| ->]]; [by exists W16|by exists W32|by exists W64]. Qed.
Lemma bits_pos w : (0 < bits w)%Z.
Proof. by destruct w. Qed.
Lemma holds_bits w z : holds (int_name w) z <-> (- 2 ^ (bits w - 1) <= z < 2 ^ (bits w - 1))%Z.
Proof. unfold holds. by rewrite type_width_name. Qed.

Lemma eval_int w op a b :
  op ∈ integer_ops -> holds (int_name w) a -> holds (int_name w) b ->
  eval_binary F op (mk (int_name w) (AInt a)) (mk (int_name w) (AInt b)) =
    match aop_of op with
    | Some o => let! z := int_op w o a b in Ok (mk (int_name w) (AInt z))
    | None => Throw "NotSupported"
    end.
Proof.
  intros Hop Ha Hb. apply holds_bits in Ha, Hb. unfold integer_ops in Hop. rewrite !elem_of_cons, elem_of_nil in Hop.
  assert (A : accepts true true (mk (int_name w) (AInt b)) = true).
  { apply accepts_value. apply sdec_iff. destruct w; by vm_compute. }
  destruct Hop as [->|[->|[->|[->|[->|[]]]]]];
    match goal with |- eval_binary F ?op ?l ?r = _ => rewrite (eval_binary_eq F op _ l r eq_refl) end; rewrite binary_int; cbn [has_small_ints orb aop_of];
    unfold int_binary; cbn [o_val mk to_int rbind]; rewrite A;
    rewrite !wrap_id by (done || apply bits_pos);
    match goal with |- context [int_op w ?o a b] => destruct (int_op w o a b) end; done.
Qed.
Lemma promoted_le w : (bits w <= promoted w)%Z.
Proof. by destruct w. Qed.
Lemma range_promoted w z : (- 2 ^ (bits w - 1) <= z < 2 ^ (bits w - 1))%Z -> in_range (promoted w) z = true.
Proof.
  intros H. apply in_range_iff. pose proof (Z.pow_le_mono_r 2 (bits w - 1) (promoted w - 1)).
  pose proof (promoted_le w). lia.
Qed.
Lemma quot_bound a b : b <> 0%Z -> (Z.abs (Z.quot a b) <= Z.abs a)%Z.
Proof.
  intros Hb. rewrite <- Z.quot_abs by done.
  assert (0 < Z.abs b)%Z by lia. rewrite Z.quot_div_nonneg by lia.
  apply Z.div_le_upper_bound; nia.
Qed.

(** The outcome of integer arithmetic. *)
Lemma int_outcome w op a b z :
  op ∈ integer_ops -> holds (int_name w) a -> holds (int_name w) b -> exact op a b = Some z ->
  ~ (op = MATH_MODULO /\ b = -1 /\ w <> W16 /\ ~ holds (int_name w) (- a))%Z ->
  eval_binary F op (mk (int_name w) (AInt a)) (mk (int_name w) (AInt b)) =
    if decide (w = W16 \/ holds (int_name w) z) then Ok (mk (int_name w) (AInt z)) else UB.
Proof.
  intros Hop Ha Hb E Hmin. rewrite eval_int by done. apply holds_bits in Ha, Hb.
  assert (K : forall x, (w = W16 -> in_range 32 x = true) -> checked (promoted w) x = if decide (w = W16 \/ holds (int_name w) x) then Ok x else UB).
  { intros x Hx. unfold checked. destruct (decide (w = W16 \/ holds (int_name w) x)) as [D|D].
    - destruct D as [->|D]; [change (promoted W16) with 32%Z; by rewrite Hx|]. apply holds_bits, range_promoted in D. by rewrite D.
    - destruct (in_range (promoted w) x) eqn:R; [|done]. exfalso. apply D. rewrite in_range_iff in R.
      destruct w; [by left|right; apply holds_bits..]; done. }
  assert (B16 : w = W16 -> (-32768 <= a < 32768 /\ -32768 <= b < 32768)%Z) by (intros ->; cbn in Ha, Hb; lia).
  assert (R : forall x, (-2147483648 <= x < 2147483648)%Z -> in_range 32 x = true) by (intros x Hx; by apply in_range_iff).
  unfold integer_ops in Hop. rewrite !elem_of_cons, elem_of_nil in Hop.
  destruct Hop as [->|[->|[->|[->|[->|[]]]]]]; cbn [aop_of int_op]; cbn [exact] in E.
  1-3: injection E as <-; rewrite K by (intros W; specialize (B16 W); apply R; nia);
    destruct (decide _); done.
  - destruct (decide (b = 0)%Z) as [|Nb]; [done|]. injection E as <-.
    rewrite (proj2 (Z.eqb_neq b 0)) by done. rewrite K; [destruct (decide _); done|].
    intros W. specialize (B16 W). apply R. pose proof (quot_bound a b Nb). lia.
  - destruct (decide (b = 0)%Z) as [|Nb]; [done|]. injection E as <-.
    rewrite (proj2 (Z.eqb_neq b 0)) by done.
    assert (in_range (promoted w) (Z.quot a b) = true) as ->.
    { pose proof (quot_bound a b Nb). destruct (decide (w = W16)) as [W|W].
      - specialize (B16 W). subst w. apply R. lia.
      - destruct (decide (b = -1)%Z) as [->|N1].
        + change (-1)%Z with (- (1))%Z; rewrite (Z.quot_opp_r a 1) by lia; rewrite Z.quot_1_r. apply range_promoted, holds_bits.
          apply dec_stable. intros N. apply Hmin. done.
        + apply range_promoted.
          assert (Z.abs (Z.quot a b) <= Z.abs a)%Z by done.
          destruct (decide (b = 1)%Z) as [->|N2]; [rewrite Z.quot_1_r; done|].
          assert (Z.abs (Z.quot a b) * 2 <= Z.abs a)%Z.
          { rewrite <- Z.quot_abs by done. rewrite Z.quot_div_nonneg by lia.
            pose proof (Z.mul_div_le (Z.abs a) (Z.abs b)). 
            assert (0 <= Z.abs a / Z.abs b)%Z by (apply Z.div_pos; lia). nia. }
          pose proof (Z.pow_pos_nonneg 2 (bits w - 1)). pose proof (bits_pos w). lia. }
    cbn [rbind]. rewrite decide_True; [done|]. right. apply holds_bits.
    pose proof (Z.rem_bound_abs a b Nb) as Q.
    pose proof (Z.rem_sign_nz a b Nb) as S.
    assert (Z.abs (Z.rem a b) <= Z.abs a)%Z.
    { rewrite <- Z.rem_abs by done. rewrite Z.rem_mod_nonneg by lia. apply Z.mod_le; lia. }
    destruct (decide (Z.rem a b = 0)%Z) as [->|NZ]; [lia|].
    specialize (S NZ). destruct (Z.rem a b) eqn:X, a eqn:Y; cbn in S; try discriminate; lia.
Qed.
Lemma int_zero_division w op a :
  op = MATH_DIVIDE \/ op = MATH_MODULO -> holds (int_name w) a ->
  eval_binary F op (mk (int_name w) (AInt a)) (mk (int_name w) (AInt 0)) = UB.
Proof.
  intros Hop Ha. rewrite eval_int; [|..]; try done.
  - by destruct Hop as [-> | ->].
  - unfold integer_ops. rewrite !elem_of_cons. destruct Hop as [-> | ->]; auto 8.
  - apply holds_bits. by destruct w.
Qed.

Lemma wrap_kept w a' a : kept_as (int_name w) a' a -> wrap (bits w) a' = a.
Proof.
  intros [Ha [k ->]]. apply holds_bits in Ha. rewrite type_width_name.
  rewrite <- (wrap_id (bits w) a (bits_pos w) Ha) at 2. unfold wrap.
  replace (a + k * 2 ^ bits w + 2 ^ (bits w - 1))%Z with (a + 2 ^ (bits w - 1) + k * 2 ^ bits w)%Z by lia.
  rewrite Z.mod_add; [done|]. pose proof (Z.pow_pos_nonneg 2 (bits w)). pose proof (bits_pos w). lia.
Qed.
Lemma int_kept w u op a' b' a b :
  u ∈ integer_types -> op ∈ integer_ops -> kept_as (int_name w) a' a -> kept_as (int_name w) b' b ->
  eval_binary F op (mk (int_name w) (AInt a')) (mk u (AInt b')) = eval_binary F op (mk (int_name w) (AInt a)) (mk (int_name w) (AInt b)).
Proof.
  intros Hu Hop Ha Hb. rewrite (eval_int w op a b) by (done || apply Ha || apply Hb).
  apply wrap_kept in Ha, Hb. apply integer_name in Hu as [x ->].
  assert (A : accepts true true (mk (int_name x) (AInt b')) = true).
  { apply accepts_value. apply sdec_iff. destruct x; by vm_compute. }
  unfold integer_ops in Hop. rewrite !elem_of_cons, elem_of_nil in Hop.
  destruct Hop as [->|[->|[->|[->|[->|[]]]]]];
    match goal with |- eval_binary F ?op ?l ?r = _ => rewrite (eval_binary_eq F op _ l r eq_refl) end; rewrite binary_int; cbn [has_small_ints orb aop_of];
    unfold int_binary; cbn [o_val mk to_int rbind]; rewrite A, Ha, Hb;
    match goal with |- context [int_op w ?o a b] => destruct (int_op w o a b) end; done.
Qed.
Lemma unary_int w op a z :
  op <> UNot -> exact_unary op a = Some z -> holds (int_name w) a ->
  unary_op F op (mk (int_name w) (AInt a)) =
    if decide (w = W16 \/ holds (int_name w) z) then Ok (mk (int_name w) (AInt z)) else UB.
Proof.
  intros Hn E Ha. apply holds_bits in Ha. unfold unary_op. cbn [o_type o_val mk].
  rewrite kind_int. cbn [to_int rbind]. rewrite wrap_id by (done || apply bits_pos).
  assert (K : (w = W16 -> in_range 32 z = true) -> checked (promoted w) z = if decide (w = W16 \/ holds (int_name w) z) then Ok z else UB).
  { intros Hx. unfold checked. destruct (decide (w = W16 \/ holds (int_name w) z)) as [D|D].
    - destruct D as [->|D]; [change (promoted W16) with 32%Z; by rewrite Hx|]. apply holds_bits, range_promoted in D. by rewrite D.
    - destruct (in_range (promoted w) z) eqn:R; [|done]. exfalso. apply D. rewrite in_range_iff in R.
      destruct w; [by left|right; apply holds_bits..]; done. }
  destruct op; try done; cbn [exact_unary] in E; injection E as <-; cbn [int_unary].
  - replace (a * -1)%Z with (- a)%Z by lia. rewrite K; [by destruct (decide _)|]. intros ->. apply in_range_iff. cbn in *. lia.
  - rewrite K; [by destruct (decide _)|]. intros ->. apply in_range_iff. cbn in *. lia.
  - rewrite K; [by destruct (decide _)|]. intros ->. apply in_range_iff. cbn in *. lia.
Qed.

(** ** Comparisons *)
Lemma eval_cmp op c l r : cmp_of op = Some c ->
  eval_boolean F op l r = let! x := compare_op F c l r in
    Ok (mk t_bool (ABool (if ttype_eqb op COMPARE_UNEQUAL then negb x else x))).
Proof. intros C. destruct op; try discriminate C; injection C as <-; done. Qed.
Lemma compare_int w c a b : holds (int_name w) a -> holds (int_name w) b ->
  compare_op F c (mk (int_name w) (AInt a)) (mk (int_name w) (AInt b)) = Ok (z_cmp c a b).
Proof.
  intros Ha Hb. apply holds_bits in Ha, Hb. unfold compare_op. cbn [o_type mk o_val to_int rbind].
  rewrite kind_int. rewrite accepts_value by (apply sdec_iff; destruct w; by vm_compute).
  rewrite !wrap_id by (done || apply bits_pos). done.
Qed.
Lemma compare_string c a b :
  compare_op F c (mk t_string (AStr a)) (mk t_string (AStr b)) = Ok (str_cmp c a b).
Proof. done. Qed.
Lemma six_order {A} (lt : A -> A -> Prop) op c (x : bool) a b :
  cmp_of op = Some c ->
  (x = true <-> match c with CEq => a = b | CLt => lt a b | CLe => lt a b \/ a = b
                           | CGt => lt b a | CGe => lt b a \/ a = b end) ->
  (if ttype_eqb op COMPARE_UNEQUAL then negb x else x) = true <-> order_says lt op a b.
Proof.
  intros C H. destruct op; try discriminate C; injection C as <-; cbn [order_says];
    first [exact H | change (negb x = true <-> a <> b); rewrite negb_true_iff, <- H; destruct x; split; congruence].
Qed.
End WithIo.
