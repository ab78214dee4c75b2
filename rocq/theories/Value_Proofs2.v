From Verif Require Import Base Base_Proofs Text_Model Text_Proofs Tok_Model Tok_Proofs TypeTable TypeSys_Model Value_Model Value_Spec Value_Proofs.

(** ** Operators on concrete types *)
Section WithIo.
Context (F : fio).

Definition numeric : list str := [t_double; t_float; t_int16; t_int; t_int64].
Lemma accepts_numeric b s r w : r ∈ numeric -> accepts b s (mk r w) = true.
Proof.
  intros H. rewrite <- sdec_iff in H. unfold sdec, numeric in H. cbn [existsb] in H.
  rewrite !orb_true_iff, !str_eqb_eq in H.
  destruct H as [->|[->|[->|[->|[->|H]]]]]; [..|done]; destruct b, s; by vm_compute.
Qed.
Lemma accepts_value r w : r ∈ value_types -> accepts true true (mk r w) = true.
Proof.
  intros H. rewrite <- sdec_iff in H. unfold sdec, value_types in H. cbn [existsb] in H.
  rewrite !orb_true_iff, !str_eqb_eq in H.
  destruct H as [->|[->|[->|[->|[->|[->|[->|H]]]]]]]; [..|done]; by vm_compute.
Qed.
Lemma accepts_bool_numeric r w b : r ∈ numeric -> accepts b false (mk r w) = true.
Proof. apply accepts_numeric. Qed.

Lemma eval_binary_eq op a l r : aop_of op = Some a -> eval_binary F op l r = binary_op F a l r.
Proof.
  intros H. unfold eval_binary. rewrite H. destruct (binary_op F a l r); try done.
Qed.

Lemma kind_int w : kind_of (int_name w) = KInt w.
Proof. by destruct w; vm_compute. Qed.

Lemma binary_int w a v o :
  binary_op F a (mk (int_name w) v) o =
    if has_small_ints a || match w with W32 => true | _ => false end then
      let! x := int_binary w a (mk (int_name w) v) o in Ok (mk (int_name w) x)
    else Throw "InvalidOperation".
Proof. unfold binary_op. cbn [o_type mk]. by rewrite kind_int. Qed.
Lemma binary_double a v o :
  binary_op F a (mk t_double v) o = let! x := double_binary F a (mk t_double v) o in Ok (mk t_double x).
Proof. unfold binary_op. cbn [o_type mk]. by change (kind_of t_double) with KDouble. Qed.
Lemma binary_float a v o :
  binary_op F a (mk t_float v) o = let! x := float_binary F a (mk t_float v) o in Ok (mk t_float x).
Proof. unfold binary_op. cbn [o_type mk]. by change (kind_of t_float) with KFloat. Qed.
Lemma binary_string a v o :
  binary_op F a (mk t_string v) o = let! x := string_binary F a (mk t_string v) o in Ok (mk t_string x).
Proof. unfold binary_op. cbn [o_type mk]. by change (kind_of t_string) with KString. Qed.

(** What the table admits for the combining operators. *)
Definition admitted_combining (d : defn) : bool :=
  let '(l, op, r, t) := d in
  negb (tdec op combining) || negb (sdec l value_types) || negb (sdec r value_types) ||
  (sdec l [t_int16; t_int; t_int64] && sdec r numeric &&
     tdec op [MATH_ADDITION; MATH_SUBTRACT; MATH_MULTIPLY; MATH_DIVIDE; MATH_MODULO; BITAND; BITOR; BITCOMPLEMENT]) ||
  (sdec l [t_double; t_float] && sdec r numeric && tdec op [MATH_ADDITION; MATH_SUBTRACT; MATH_MULTIPLY; MATH_DIVIDE]) ||
  (sdec l [t_string] && tdec op [MATH_ADDITION; OPERATOR_SHIFT_LEFT]).
Lemma admitted_combining_ok : forallb admitted_combining builtin_defs = true.
Proof. by vm_compute. Qed.

Lemma to_int_cases v : (exists z, to_int v = Ok z) \/ to_int v = UB.
Proof.
  destruct v as [b|d|f|z|r|s]; cbn [to_int]; eauto;
    (destruct d || destruct f); cbn [int_of_fp]; unfold checked; try (by eauto); destruct (in_range _ _); eauto.
Qed.
Lemma checked_cases w z : checked w z = Ok z \/ checked w z = UB.
Proof. unfold checked. destruct (in_range w z); auto. Qed.

Definition benign {A} (t : str) (P : A -> Prop) (x : res A) : Prop :=
  match x with Ok o => P o | UB => t ∈ integer_types | _ => False end.

Lemma int_binary_benign w a v r :
  (a = OAdd \/ a = OSub \/ a = OMul \/ a = ODiv \/ a = OMod \/ a = OAnd \/ a = OOr) ->
  accepts true false r = true ->
  (exists z, int_binary w a (mk (int_name w) v) r = Ok (AInt z)) \/ int_binary w a (mk (int_name w) v) r = UB.
Proof.
  intros Ha Hr.
  assert (accepts true true r = true) as Hr'.
  { unfold accepts in *. rewrite !orb_true_iff, ?andb_true_iff in *. tauto. }
  unfold int_binary. cbn [o_val mk].
  destruct (to_int_cases v) as [[x ->]| ->]; [|by right]. cbn [rbind].
  destruct (to_int_cases (o_val r)) as [[y E]|E];
    destruct Ha as [->|[->|[->|[->|[->|[->| ->]]]]]]; rewrite ?Hr, ?Hr', E; cbn [rbind]; try by right.
  all: unfold int_op, checked; repeat match goal with
    | |- context [if ?b then _ else _] => destruct b end; cbn [rbind]; eauto.
Qed.

Lemma in3 {A} (x a b c : A) : x ∈ [a; b; c] -> x = a \/ x = b \/ x = c.
Proof. rewrite !elem_of_cons, elem_of_nil. tauto. Qed.
Lemma in2 {A} (x a b : A) : x ∈ [a; b] -> x = a \/ x = b.
Proof. rewrite !elem_of_cons, elem_of_nil. tauto. Qed.

Ltac eb := repeat match goal with
  |- context [eval_binary F ?op ?l ?r] => rewrite !(eval_binary_eq op _ l r eq_refl) end.
Lemma combining_outcome l op r t v w :
  l ∈ value_types -> r ∈ value_types -> op ∈ combining ->
  get_type builtin_table l op r = Ok t ->
  (unsupported l op -> eval_binary F op (mk l v) (mk r w) = Throw "InvalidOperation" \/ eval_binary F op (mk l v) (mk r w) = UB) /\
  (~ unsupported l op -> benign l (fun o => o_type o = l /\ o_atomic o = true) (eval_binary F op (mk l v) (mk r w))).
Proof.
  intros Hl Hr Hop HT. pose proof (builtin_forall _ admitted_combining_ok _ _ _ _ HT) as A.
  clear HT. unfold admitted_combining in A.
  rewrite (proj2 (tdec_iff op combining)), (proj2 (sdec_iff l value_types)), (proj2 (sdec_iff r value_types)) in A by done.
  cbn [negb orb] in A. rewrite !orb_true_iff, !andb_true_iff, !sdec_iff, !tdec_iff in A.
  destruct A as [[[[A1 A2] A3]|[[A1 A2] A3]]|[A1 A3]].
  - assert (exists w, l = int_name w) as [wd ->].
    { apply in3 in A1 as [->|[->| ->]]; [by exists W16|by exists W32|by exists W64]. }
    pose proof (fun a => int_binary_benign wd a v (mk r w)) as B.
    specialize (B) as B.
    assert (H' : accepts true false (mk r w) = true) by by apply accepts_numeric.
    rewrite !elem_of_cons, elem_of_nil in A3.
    assert (Hint : int_name wd ∈ integer_types) by (destruct wd; unfold integer_types; rewrite !elem_of_cons; auto).
    assert (arith : forall a, aop_of op = Some a -> has_small_ints a = true -> benign (int_name wd) (fun o => o_type o = int_name wd /\ o_atomic o = true) (eval_binary F op (mk (int_name wd) v) (mk r w))).
    { intros a E S. rewrite (eval_binary_eq _ _ _ _ E), binary_int, S. cbn [orb].
      assert (a = OAdd \/ a = OSub \/ a = OMul \/ a = ODiv \/ a = OMod \/ a = OAnd \/ a = OOr) as Ca.
      { clear -S. destruct a; cbn in S; try discriminate S; tauto. }
      destruct (B a Ca H') as [[z ->]| ->]; cbn [rbind benign]; done. }
    assert (unsup : forall a, aop_of op = Some a -> has_small_ints a = true -> ~ unsupported (int_name wd) op).
    { intros a E S [->|[[-> | ->] _]]; cbn in E; injection E as <-; discriminate. }
    destruct A3 as [->|[->|[->|[->|[->|[->|[->|[->|[]]]]]]]]].
    1-5: split; intros U; [by destruct (unsup _ eq_refl eq_refl) | by eapply arith].
    1-2: eb; rewrite binary_int; cbn [has_small_ints orb];
      destruct wd; [split; [by left | intros U; destruct U; right; split; [tauto|left; done]]
                   | | split; [by left | intros U; destruct U; right; split; [tauto|right; done]]];
      (split; [intros [|[_ [|]]]; discriminate|intros _]).
    1: destruct (B OAnd ltac:(tauto) H') as [[z ->]| ->]; cbn [rbind benign]; done.
    1: destruct (B OOr ltac:(tauto) H') as [[z ->]| ->]; cbn [rbind benign]; done.
    eb; rewrite binary_int. cbn [has_small_ints orb].
    split; [|intros U; destruct U; by left]. intros _.
    destruct wd; [by left| |by left]. unfold int_binary. cbn [o_val mk].
    destruct (to_int_cases v) as [[x ->]| ->]; cbn [rbind]; auto.
  - apply in2 in A1. rewrite !elem_of_cons, elem_of_nil in A3.
    split.
    + intros [->|[[-> | ->] _]]; destruct A3 as [A3|[A3|[A3|[A3|[]]]]]; discriminate.
    + intros _. destruct A1 as [-> | ->]; destruct A3 as [->|[->|[->|[->|[]]]]];
        eb; rewrite ?binary_double, ?binary_float;
        unfold double_binary, float_binary; rewrite ?accepts_numeric by done; cbn [fp_op rbind benign]; done.
  - apply elem_of_list_singleton in A1 as ->. rewrite !elem_of_cons, elem_of_nil in A3.
    split.
    + intros [->|[[-> | ->] _]]; destruct A3 as [A3|[A3|[]]]; discriminate.
    + intros _. destruct A3 as [->|[->|[]]];
        eb; rewrite binary_string;
        unfold string_binary; rewrite accepts_value by done; cbn [rbind benign]; done.
Qed.

(** When the announced type differs from the left operand's. *)
Definition announced (d : defn) : bool :=
  let '(l, op, r, t) := d in
  negb (tdec op combining) || negb (sdec l value_types) || negb (sdec r value_types) ||
  eqb (str_eqb t l)
    (negb ((sdec l integer_types && sdec r floating_types) || (str_eqb l t_int16 && sdec r [t_int; t_int64]))).
Lemma announced_ok : forallb announced builtin_defs = true.
Proof. by vm_compute. Qed.
Lemma combining_announced l op r t :
  l ∈ value_types -> r ∈ value_types -> op ∈ combining ->
  get_type builtin_table l op r = Ok t -> (t = l <-> ~ promoting l r).
Proof.
  intros Hl Hr Hop HT. pose proof (builtin_forall _ announced_ok _ _ _ _ HT) as A.
  clear HT. unfold announced in A.
  rewrite (proj2 (tdec_iff op combining)), (proj2 (sdec_iff l value_types)), (proj2 (sdec_iff r value_types)) in A by done.
  cbn [negb orb] in A. apply eqb_prop in A.
  rewrite <- str_eqb_eq, A, negb_true_iff. unfold promoting.
  rewrite <- not_true_iff_false, orb_true_iff, !andb_true_iff, !sdec_iff, str_eqb_eq.
  rewrite (elem_of_cons [t_int64] r t_int), elem_of_list_singleton. done.
Qed.
End WithIo.
