(** Properties of built-in types and operators: C23-C27. *)
From Coq Require Import Floats.SpecFloat.
From Verif Require Import Base Base_Proofs Text_Model Text_Proofs Tok_Model Tok_Proofs TypeTable TypeSys_Model Value_Model Value_Spec Value_Proofs Value_Proofs2 Value_Proofs3 Value_Proofs4 Value_Float.

(** ** C23: static operator typing is functional *)
(** After any sequence of define calls a query gives the type of the first definition with that left type, operator
    and right type, and nothing else. *)
Theorem C23_first_definition_wins ds l op r t :
  get_type (define_all [] ds) l op r = Ok t <-> first_result ds l op r = Some t.
Proof. rewrite get_type_Ok, define_all_first. done. Qed.
Print Assumptions C23_first_definition_wins.
Example C23_first_definition_wins_ex :
  get_type (define_all [] [(t_int, MATH_ADDITION, t_int, t_int); (t_int, MATH_ADDITION, t_int, t_double)])
    t_int MATH_ADDITION t_int = Ok t_int.
Proof. by vm_compute. Qed.

(** Without a definition the error says how much of the key is known. *)
Theorem C23_errors_classified ds l op r :
  first_result ds l op r = None ->
  (~ in_left ds l -> get_type (define_all [] ds) l op r = Throw "UnknownIdentifier") /\
  (in_left ds l -> ~ in_op ds l op -> get_type (define_all [] ds) l op r = Throw "UnknownOperation") /\
  (in_op ds l op -> get_type (define_all [] ds) l op r = Throw "TypeMismatch").
Proof. apply get_type_error. Qed.
Print Assumptions C23_errors_classified.
Example C23_errors_classified_ex :
  let t := define_all [] [(t_int, MATH_ADDITION, t_int, t_int)] in
  get_type t ($"Car") MATH_ADDITION t_int = Throw "UnknownIdentifier" /\
  get_type t t_int MATH_DIVIDE t_int = Throw "UnknownOperation" /\
  get_type t t_int MATH_ADDITION t_bool = Throw "TypeMismatch".
Proof. by vm_compute. Qed.

(** The existence query says yes exactly when the type query gives a named type. *)
Theorem C23_exists_agrees ds l op r :
  exists_type (define_all [] ds) l op r = true <-> exists t, get_type (define_all [] ds) l op r = Ok t /\ t <> [].
Proof. rewrite exists_type_iff. split; intros (x & H & N); exists x; (split; [by apply get_type_Ok in H || apply get_type_Ok | done]). Qed.
Print Assumptions C23_exists_agrees.

(** A later definition never changes an answer. *)
Theorem C23_definitions_are_kept t l op r x ds :
  get_type t l op r = Ok x -> get_type (define_all t ds) l op r = Ok x.
Proof. rewrite !get_type_Ok, define_all_first, first_result_app. intros ->. done. Qed.
Print Assumptions C23_definitions_are_kept.
Example C23_definitions_are_kept_ex :
  get_type (define_all (define_all [] [(t_int, MATH_ADDITION, t_int, t_int)]) [(t_int, MATH_ADDITION, t_int, t_string)])
    t_int MATH_ADDITION t_int = Ok t_int.
Proof. by vm_compute. Qed.

(** Comparing two values of built-in value types, where admitted, is announced as a truth value. *)
Theorem C23_comparisons_announce_bool l op r t :
  l ∈ value_types -> r ∈ value_types -> op ∈ six -> get_type builtin_table l op r = Ok t -> t = t_bool.
Proof.
  intros Hl Hr Hop H. assert (exists c, cmp_of op = Some c) as [c C].
  { clear -Hop. unfold six in Hop. rewrite !elem_of_cons, elem_of_nil in Hop.
    destruct Hop as [->|[->|[->|[->|[->|[->|[]]]]]]]; eauto. }
  by destruct (admitted_runs l op r t c Hl Hr C H).
Qed.
Print Assumptions C23_comparisons_announce_bool.
Example C23_comparisons_announce_bool_ex : get_type builtin_table t_int COMPARE_LESS t_double = Ok t_bool.
Proof. bt. Qed.
(** Not so for Object: comparing two objects is announced as an Object. *)
Theorem C23_comparisons_announce_bool_refuted :
  get_type builtin_table t_object COMPARE_EQUAL t_object = Ok t_object.
Proof. bt. Qed.
Print Assumptions C23_comparisons_announce_bool_refuted.

(** A class gets its default operators whatever it declares: a value can be assigned to a variable of its own type
    and of each of its ancestors' types; comparing with its own type is a truth value unless it declares ==. *)
Lemma method_assign_self me ms x :
  (me, ASSIGN, me, x) ∈ flat_map (method_defs me) ms -> x = me.
Proof.
  rewrite elem_of_list_In, in_flat_map. intros (m & _ & H). unfold method_defs in H.
  repeat match type of H with
  | In _ (match ?x with _ => _ end) => destruct x
  | In _ (if ?x then _ else _) => destruct x
  end; cbn [In] in H; naive_solver.
Qed.
Lemma method_equal_self me ms x :
  (me, COMPARE_EQUAL, me, x) ∈ flat_map (method_defs me) ms ->
  exists m, m ∈ ms /\ ms_name m = $"operator==" /\ ms_params m = [me].
Proof.
  rewrite elem_of_list_In, in_flat_map. intros (m & Hm & H). exists m. rewrite elem_of_list_In. split; [done|].
  unfold method_defs in H. destruct (ms_params m) as [|p [|]]; cbn [In] in H.
  - repeat match type of H with In _ (if ?x then _ else _) => destruct x end; cbn [In] in H; naive_solver.
  - repeat match type of H with In _ (if str_eqb ?x ?y then _ else _) => destruct (str_eqb_spec x y) as [E|_] end;
      cbn [In] in H; naive_solver.
  - done.
Qed.
Theorem C23_class_defaults t b :
  bp_enum b = false -> first_result t (bp_name b) ASSIGN (bp_name b) = None ->
  get_type (init_blueprint t b) (bp_name b) ASSIGN (bp_name b) = Ok (bp_name b) /\
  (first_result t (bp_name b) COMPARE_EQUAL (bp_name b) = None -> bp_name b <> t_object ->
   (forall m, m ∈ bp_methods b -> ms_name m = $"operator==" -> ms_params m <> [bp_name b]) ->
   get_type (init_blueprint t b) (bp_name b) COMPARE_EQUAL (bp_name b) = Ok t_bool) /\
  (forall a, a ∈ bp_ancestors b -> exists x, get_type (init_blueprint t b) a ASSIGN (bp_name b) = Ok x).
Proof.
  intros He Hn. unfold init_blueprint.
  assert (exists_type t (bp_name b) ASSIGN (bp_name b) = false) as ->.
  { apply not_true_iff_false. rewrite exists_type_iff. rewrite Hn. naive_solver. }
  rewrite He. set (ds := flat_map (method_defs (bp_name b)) (bp_methods b) ++ default_defs b).
  split_and!.
  - rewrite get_type_Ok, define_all_first, first_result_app, Hn. apply first_result_same.
    + exists (bp_name b). apply elem_of_app. right. unfold default_defs. rewrite elem_of_app. left.
      rewrite !elem_of_cons. auto.
    + intros x. unfold ds. rewrite elem_of_app. intros [H|H]; [by eapply method_assign_self|].
      unfold default_defs in H. rewrite elem_of_app in H. destruct H as [H|H].
      * rewrite !elem_of_cons, elem_of_nil in H. naive_solver.
      * apply elem_of_list_In, in_flat_map in H as (a & _ & H). cbn [In] in H. naive_solver.
  - intros Hq Ho Hm. rewrite get_type_Ok, define_all_first, first_result_app, Hq. apply first_result_same.
    + exists t_bool. apply elem_of_app. right. unfold default_defs. rewrite elem_of_app. left.
      rewrite !elem_of_cons. auto 10.
    + intros x. unfold ds. rewrite elem_of_app. intros [H|H].
      { apply method_equal_self in H as (m & H1 & H2 & H3). by destruct (Hm m). }
      unfold default_defs in H. rewrite elem_of_app in H. destruct H as [H|H].
      * rewrite !elem_of_cons, elem_of_nil in H. naive_solver.
      * apply elem_of_list_In, in_flat_map in H as (a & _ & H). cbn [In] in H. naive_solver.
  - intros a Ha. destruct (elem_first (t ++ ds) a ASSIGN (bp_name b) a) as [y Hy].
    + apply elem_of_app. right. apply elem_of_app. right. unfold default_defs. apply elem_of_app. right.
      apply elem_of_list_In, in_flat_map. exists a. split; [by apply elem_of_list_In|]. by left.
    + exists y. by rewrite get_type_Ok, define_all_first.
Qed.
Print Assumptions C23_class_defaults.
Example C23_class_defaults_ex :
  let b := BP ($"Car") false [MSig ($"operator+") [t_int] t_int] [t_object; $"Vehicle"] in
  get_type (init_blueprint [] b) ($"Car") ASSIGN ($"Car") = Ok ($"Car") /\
  get_type (init_blueprint [] b) ($"Vehicle") ASSIGN ($"Car") = Ok ($"Vehicle") /\
  get_type (init_blueprint [] b) ($"Car") COMPARE_EQUAL ($"Car") = Ok t_bool /\
  get_type (init_blueprint [] b) ($"Car") MATH_ADDITION t_int = Ok ($"Car").
Proof. by vm_compute. Qed.

(** ** C24: well-typed built-in operators do not fail at run time *)
(** Arithmetic, bit and concatenation operators admitted by the table, on every pair of values, leave a value of the
    left operand's type, except where [unsupported] says; undefined behaviour is possible for integers only (C25). *)
Theorem C24_admitted_combining_runs_partial F l op r t v w :
  l ∈ value_types -> r ∈ value_types -> op ∈ combining -> ~ unsupported l op ->
  get_type builtin_table l op r = Ok t ->
  (exists o, eval_binary F op (mk l v) (mk r w) = Ok o /\ o_type o = l) \/
  (eval_binary F op (mk l v) (mk r w) = UB /\ l ∈ integer_types).
Proof.
  intros Hl Hr Hop U HT. destruct (combining_outcome F l op r t v w Hl Hr Hop HT) as [_ H]. specialize (H U). clear HT.
  destruct (eval_binary F op (mk l v) (mk r w)); cbn [benign] in H; [left; naive_solver|done|by right|done].
Qed.
Print Assumptions C24_admitted_combining_runs_partial.
Definition no_io : fio := FIO (fun _ => []) (fun _ => []) (fun _ => S754_nan) (fun _ => S754_nan).
Example C24_admitted_combining_runs_ex :
  get_type builtin_table t_string MATH_ADDITION t_int = Ok t_string /\
  eval_binary no_io MATH_ADDITION (mk t_string (AStr ($"a"))) (mk t_int (AInt 7)) = Ok (mk t_string (AStr ($"a7"))).
Proof. split; [bt|by vm_compute]. Qed.

(** The exceptions are real: every bit complement, and and/or of int16 and int64, are admitted by the table and fail
    on all operands. *)
Theorem C24_admitted_combining_runs_refuted F l op r t v w :
  l ∈ value_types -> r ∈ value_types -> op ∈ combining -> unsupported l op ->
  get_type builtin_table l op r = Ok t ->
  eval_binary F op (mk l v) (mk r w) = Throw "InvalidOperation" \/ eval_binary F op (mk l v) (mk r w) = UB.
Proof. intros Hl Hr Hop U HT. destruct (combining_outcome F l op r t v w Hl Hr Hop HT) as [H _]. exact (H U). Qed.
Print Assumptions C24_admitted_combining_runs_refuted.
Example C24_admitted_combining_runs_refuted_ex :
  get_type builtin_table t_int64 BITAND t_int64 = Ok t_int64 /\
  eval_binary no_io BITAND (mk t_int64 (AInt 6)) (mk t_int64 (AInt 3)) = Throw "InvalidOperation" /\
  get_type builtin_table t_int BITCOMPLEMENT t_int = Ok t_int /\
  eval_binary no_io BITCOMPLEMENT (mk t_int (AInt 6)) (mk t_int (AInt 3)) = Throw "InvalidOperation".
Proof. split; [bt|]. split; [by vm_compute|]. split; [bt|by vm_compute]. Qed.

(** The announced type is the type of the value exactly when the operands are not [promoting]. *)
Theorem C24_announced_type_partial l op r t :
  l ∈ value_types -> r ∈ value_types -> op ∈ combining -> get_type builtin_table l op r = Ok t ->
  (t = l <-> ~ promoting l r).
Proof. apply combining_announced. Qed.
Print Assumptions C24_announced_type_partial.
(** The exception: int + double is announced as double and gives an int, without the fraction. *)
Theorem C24_announced_type_refuted :
  get_type builtin_table t_int MATH_ADDITION t_double = Ok t_double /\
  forall F, eval_binary F MATH_ADDITION (mk t_int (AInt 1)) (mk t_double (ADouble (S754_finite false 3 (-1)))) =
    Ok (mk t_int (AInt 2)).
Proof. split; [bt|]. intros F. by vm_compute. Qed.
Print Assumptions C24_announced_type_refuted.

(** Comparisons admitted by the table and boolean operators give a truth value. *)
Theorem C24_deciding_runs F l op r v w :
  l ∈ value_types -> r ∈ value_types -> op ∈ deciding ->
  (op ∈ six -> exists t, get_type builtin_table l op r = Ok t) ->
  (exists b, eval_boolean F op (mk l v) (mk r w) = Ok (mk t_bool (ABool b))) \/
  (eval_boolean F op (mk l v) (mk r w) = UB /\ l ∈ integer_types).
Proof.
  intros Hl Hr Hop HT. pose proof (deciding_outcome F l op r v w Hl Hr Hop HT) as H. clear HT.
  destruct (eval_boolean F op (mk l v) (mk r w)); cbn [benign] in H; [left; naive_solver|done|by right|done].
Qed.
Print Assumptions C24_deciding_runs.
Example C24_deciding_runs_ex :
  get_type builtin_table t_int COMPARE_LESS t_double = Ok t_bool /\
  eval_boolean no_io COMPARE_LESS (mk t_int (AInt 1)) (mk t_double (ADouble (d_of_int 2))) = Ok (mk t_bool (ABool true)).
Proof. split; [bt|by vm_compute]. Qed.

(** Assigning to a variable of a value type keeps the variable's type. *)
Theorem C24_assignment_runs F inst l r v w :
  l ∈ value_types ->
  (exists o, assign_op F inst (mk l v) (mk r w) = Ok o /\ o_type o = l) \/
  (assign_op F inst (mk l v) (mk r w) = UB /\ l ∈ integer_types).
Proof.
  intros Hl. pose proof (assign_outcome F inst l r v w Hl) as H.
  destruct (assign_op F inst (mk l v) (mk r w)); cbn [benign] in H; [left; naive_solver|done|by right|done].
Qed.
Print Assumptions C24_assignment_runs.
Example C24_assignment_runs_ex :
  assign_op no_io false (mk t_int (AInt 1)) (mk t_string (AStr ($"42"))) = Ok (mk t_int (AInt 42)).
Proof. by vm_compute. Qed.

(** Casting between value types gives the target type. *)
Theorem C24_casts_run F t r w :
  t ∈ value_types -> r ∈ value_types ->
  (exists o, typecast F (mk r w) t = Ok o /\ o_type o = t) \/ (typecast F (mk r w) t = UB /\ t ∈ integer_types).
Proof.
  intros Ht Hr. pose proof (cast_outcome F t r w Ht Hr) as H.
  destruct (typecast F (mk r w) t); cbn [benign] in H; [left; naive_solver|done|by right|done].
Qed.
Print Assumptions C24_casts_run.
Example C24_casts_run_ex : typecast no_io (mk t_int (AInt 70000)) t_int16 = Ok (mk t_int16 (AInt 4464)).
Proof. by vm_compute. Qed.
(** A cast of an int to the type enum is admitted and fails for every value; so is and does unary plus. *)
Theorem C24_enum_cast_refuted :
  get_type builtin_table t_int TYPECAST t_enum = Ok t_enum /\
  forall F v, typecast F (mk t_int v) t_enum = Throw "AssertionFailure".
Proof. split; [bt|]. done. Qed.
Print Assumptions C24_enum_cast_refuted.
Theorem C24_unary_plus_refuted t :
  t ∈ [t_double; t_float; t_int16; t_int; t_int64] ->
  get_type builtin_table t MATH_ADDITION t_unary = Ok t /\
  forall F v, unary_op F UPlus (mk t v) = Throw "InvalidOperation" \/ unary_op F UPlus (mk t v) = UB.
Proof.
  intros H. rewrite !elem_of_cons, elem_of_nil in H.
  assert (G : forall t, sdec t [t_double; t_float; t_int16; t_int; t_int64] = true -> get_type builtin_table t MATH_ADDITION t_unary = Ok t).
  { intros u Hu. apply sdec_iff in Hu. rewrite !elem_of_cons, elem_of_nil in Hu.
    destruct Hu as [->|[->|[->|[->|[->|[]]]]]]; bt. }
  split. { apply G, sdec_iff. clear G. rewrite !elem_of_cons. tauto. }
  clear G. intros F v. unfold unary_op. cbn [o_type mk o_val].
  destruct H as [->|[->|[->|[->|[->|[]]]]]]; [by left|by left|..];
    match goal with |- context [kind_of ?t] => let k := eval vm_compute in (kind_of t) in change (kind_of t) with k end;
    destruct (to_int_cases v) as [[x ->]| ->]; cbn [rbind int_unary]; auto.
Qed.
Print Assumptions C24_unary_plus_refuted.
(** Minus, plus, ++ and -- are refused for truth values and texts. *)
Theorem C24_unary_refused F t op v :
  t = t_bool \/ t = t_string -> op <> UNot -> unary_op F op (mk t v) = Throw "InvalidOperation".
Proof. intros [-> | ->] Hn; destruct op; done. Qed.
Print Assumptions C24_unary_refused.
(** For numbers they give a number of the same type; the value is exact, and undefined when an int or int64 cannot hold it. *)
Theorem C25_unary_exact_or_undefined F t op a z :
  t ∈ integer_types -> exact_unary op a = Some z -> holds t a ->
  (holds t z \/ t = t_int16 -> unary_op F op (mk t (AInt a)) = Ok (mk t (AInt z))) /\
  (~ holds t z -> t <> t_int16 -> unary_op F op (mk t (AInt a)) = UB).
Proof.
  intros Ht E Ha. apply integer_name in Ht as [w ->]. rewrite (unary_int F w op a z); [|by intros ->|done..].
  assert (W : int_name w = t_int16 <-> w = W16) by (destruct w; split; try done; discriminate).
  rewrite W. split; intros H; [rewrite decide_True by tauto; done|]. intros N. rewrite decide_False by tauto. done.
Qed.
Print Assumptions C25_unary_exact_or_undefined.
Example C25_unary_ex : holds t_int (-2147483648) /\
  unary_op no_io UMinus (mk t_int (AInt (-2147483648))) = UB /\ unary_op no_io UDec (mk t_int (AInt 0)) = Ok (mk t_int (AInt (-1))).
Proof. by vm_compute. Qed.
(** Not gives a truth value, the opposite of the operand's truth. *)
Theorem C24_not_is_opposite F t v b :
  proper t v -> typecast F (mk t v) t_bool = Ok (mk t_bool (ABool b)) ->
  unary_op F UNot (mk t v) = Ok (mk t_bool (ABool (negb b))).
Proof.
  intros Hp Hc. assert (t ∈ value_types) as Hv.
  { destruct v; cbn [proper] in Hp; subst; try done; try (apply sdec_iff; by vm_compute).
    destruct Hp as [Hp _]. apply integer_name in Hp as [w ->]. apply sdec_iff. by destruct w; vm_compute. }
  unfold typecast in Hc. change (kind_of t_bool) with KBool in Hc. rewrite accepts_value in Hc by done.
  change (bool_decide (t_bool = [])) with false in Hc. cbn [o_val mk] in Hc. injection Hc as <-.
  unfold unary_op. cbn [o_type o_val mk]. destruct v; cbn [proper] in Hp; subst; try done.
  destruct Hp as [Hp Hz]. apply integer_name in Hp as [w ->]. rewrite kind_int. cbn [to_int rbind to_bool].
  destruct w; try done. apply holds_bits in Hz. by rewrite wrap_id.
Qed.
Print Assumptions C24_not_is_opposite.
Example C24_not_is_opposite_ex : proper t_int16 (AInt 7) /\ typecast no_io (mk t_int16 (AInt 7)) t_bool = Ok (mk t_bool (ABool true)).
Proof. split; [|by vm_compute]. split; [apply sdec_iff|]; by vm_compute. Qed.
(** Plus and << on a text append the text form of the right operand. *)
Theorem C24_concatenation F op a r w b :
  r ∈ value_types -> op = MATH_ADDITION \/ op = OPERATOR_SHIFT_LEFT ->
  typecast F (mk r w) t_string = Ok (mk t_string (AStr b)) ->
  eval_binary F op (mk t_string (AStr a)) (mk r w) = Ok (mk t_string (AStr (a ++ b))).
Proof.
  intros Hr Hop Hc. unfold typecast in Hc. change (kind_of t_string) with KString in Hc. rewrite accepts_value in Hc by done.
  change (bool_decide (t_string = [])) with false in Hc. cbn [o_val mk] in Hc. injection Hc as Hc.
  destruct Hop as [-> | ->]; match goal with |- eval_binary F ?op ?l ?r = _ => rewrite (eval_binary_eq F op _ l r eq_refl) end;
    rewrite binary_string; unfold string_binary; rewrite accepts_value by done; cbn [o_val mk to_std_string rbind]; by rewrite Hc.
Qed.
Print Assumptions C24_concatenation.
Example C24_concatenation_ex : typecast no_io (mk t_int (AInt 42)) t_string = Ok (mk t_string (AStr ($"42"))) /\
  eval_binary no_io MATH_ADDITION (mk t_string (AStr ($"x"))) (mk t_int (AInt 42)) = Ok (mk t_string (AStr ($"x42"))).
Proof. by vm_compute. Qed.
(** Arithmetic on two values of one enumeration is admitted and fails for all values. *)
Theorem C24_enum_arithmetic_refuted F e op a b :
  kind_of e = KOther -> op ∈ [MATH_ADDITION; MATH_SUBTRACT; MATH_MULTIPLY; MATH_DIVIDE] ->
  first_result builtin_defs e op e = None -> first_result builtin_defs e ASSIGN e = None ->
  get_type (init_blueprint builtin_table (BP e true [] [])) e op e = Ok e /\
  eval_binary F op (mk_enum e a) (mk_enum e b) = Throw "InvalidOperation".
Proof.
  intros K Hop Hf Hx0.
  assert (Hx : exists_type builtin_table e ASSIGN e = false).
  { apply not_true_iff_false. rewrite exists_type_iff. rewrite builtin_first, Hx0. clear. intros (x & H & _). discriminate. }
  clear Hx0. split.
  - unfold init_blueprint. cbn [bp_enum bp_name]. rewrite Hx, get_type_Ok, define_all_first, first_result_app.
    rewrite builtin_first, Hf.
    clear Hf Hx. apply first_result_same.
    + exists e. unfold enum_defs. rewrite !elem_of_app, !elem_of_cons.
      rewrite !elem_of_cons, elem_of_nil in Hop. destruct Hop as [->|[->|[->|[->|[]]]]]; tauto.
    + intros x H. unfold enum_defs in H. rewrite !elem_of_app in H. cbn [map comparisons] in H.
      rewrite !elem_of_cons, !elem_of_nil in H. rewrite !elem_of_cons, elem_of_nil in Hop.
      destruct Hop as [->|[->|[->|[->|[]]]]]; naive_solver.
  - assert (exists o, aop_of op = Some o) as [o Ho].
    { clear Hf Hx. rewrite !elem_of_cons, elem_of_nil in Hop. destruct Hop as [->|[->|[->|[->|[]]]]]; eauto. }
    clear Hf Hx. rewrite (eval_binary_eq F op o _ _ Ho). unfold binary_op. cbn [o_type mk_enum]. by rewrite K.
Qed.
Print Assumptions C24_enum_arithmetic_refuted.
Example C24_enum_arithmetic_ex :
  kind_of ($"Color") = KOther /\ first_result builtin_defs ($"Color") MATH_ADDITION ($"Color") = None /\
  first_result builtin_defs ($"Color") ASSIGN ($"Color") = None.
Proof. by vm_compute. Qed.

(** ** C25: integer arithmetic *)
(** Whenever the exact result is representable the operator returns it; int and int64 are undefined otherwise, int16
    returns the exact result even when it is no int16. The one representable result not returned is the remainder of
    the smallest int or int64 by -1, which is undefined behaviour. *)
Theorem C25_exact_or_undefined F t op a b z :
  t ∈ integer_types -> op ∈ integer_ops -> holds t a -> holds t b -> exact op a b = Some z ->
  ~ (op = MATH_MODULO /\ b = -1 /\ t <> t_int16 /\ ~ holds t (- a))%Z ->
  (holds t z -> eval_binary F op (mk t (AInt a)) (mk t (AInt b)) = Ok (mk t (AInt z))) /\
  (~ holds t z -> t <> t_int16 -> eval_binary F op (mk t (AInt a)) (mk t (AInt b)) = UB) /\
  (t = t_int16 -> eval_binary F op (mk t (AInt a)) (mk t (AInt b)) = Ok (mk t (AInt z))).
Proof.
  intros Ht Hop Ha Hb E Hm. apply integer_name in Ht as [w ->].
  assert (W : int_name w <> t_int16 <-> w <> W16) by (destruct w; split; try done; intros _; discriminate).
  assert (W' : int_name w = t_int16 <-> w = W16) by (destruct w; split; try done; discriminate).
  rewrite (int_outcome F w op a b z); try done; [|by rewrite <- W].
  split_and!; intros H.
  - by rewrite decide_True by auto.
  - intros N. rewrite decide_False; [done|]. intros [X|X]; [|done]. by apply W in N.
  - apply W' in H. by rewrite decide_True by auto.
Qed.
Print Assumptions C25_exact_or_undefined.
Example C25_exact_or_undefined_ex :
  eval_binary no_io MATH_MULTIPLY (mk t_int (AInt 46341)) (mk t_int (AInt 46340)) = Ok (mk t_int (AInt 2147441940)) /\
  eval_binary no_io MATH_MULTIPLY (mk t_int (AInt 46341)) (mk t_int (AInt 46341)) = UB /\
  eval_binary no_io MATH_MODULO (mk t_int64 (AInt (-7))) (mk t_int64 (AInt 2)) = Ok (mk t_int64 (AInt (-1))).
Proof. by vm_compute. Qed.

(** Operands are first cut to the width of the left operand's type, whatever integer type the right one has. *)
Theorem C25_operands_cut F t u op a' b' a b :
  t ∈ integer_types -> u ∈ integer_types -> op ∈ integer_ops -> kept_as t a' a -> kept_as t b' b ->
  eval_binary F op (mk t (AInt a')) (mk u (AInt b')) = eval_binary F op (mk t (AInt a)) (mk t (AInt b)).
Proof. intros Ht Hu Hop Ha Hb. apply integer_name in Ht as [w ->]. by apply int_kept. Qed.
Print Assumptions C25_operands_cut.
Example C25_operands_cut_ex : kept_as t_int (4294967296 + 5) 5 /\
  eval_binary no_io MATH_SUBTRACT (mk t_int (AInt 7)) (mk t_int64 (AInt (4294967296 + 5))) = Ok (mk t_int (AInt 2)).
Proof. split; [|by vm_compute]. split; [by vm_compute|]. by exists 1%Z. Qed.

(** Division by zero is not an error the program can handle: it is undefined behaviour for every dividend. *)
Theorem C25_never_undefined_refuted F t op a :
  t ∈ integer_types -> op = MATH_DIVIDE \/ op = MATH_MODULO -> holds t a ->
  eval_binary F op (mk t (AInt a)) (mk t (AInt 0)) = UB.
Proof. intros Ht Hop Ha. apply integer_name in Ht as [w ->]. by apply int_zero_division. Qed.
Print Assumptions C25_never_undefined_refuted.
Theorem C25_smallest_remainder_refuted F :
  eval_binary F MATH_MODULO (mk t_int (AInt (-2147483648))) (mk t_int (AInt (-1))) = UB /\
  exact MATH_MODULO (-2147483648) (-1) = Some 0%Z.
Proof. split; by vm_compute. Qed.
Print Assumptions C25_smallest_remainder_refuted.
(** An int16 sum can be no int16, and the next operation changes it. *)
Theorem C25_int16_results_are_int16_refuted F :
  eval_binary F MATH_ADDITION (mk t_int16 (AInt 30000)) (mk t_int16 (AInt 30000)) = Ok (mk t_int16 (AInt 60000)) /\
  ~ holds t_int16 60000 /\
  eval_binary F MATH_ADDITION (mk t_int16 (AInt 60000)) (mk t_int16 (AInt 0)) = Ok (mk t_int16 (AInt (-5536))).
Proof. split; [by vm_compute|]. split; [vm_compute; intros [_ H]; discriminate|by vm_compute]. Qed.
Print Assumptions C25_int16_results_are_int16_refuted.

(** ** C26: comparison operators agree with one total order *)
Theorem C26_integers_one_order F t op a b :
  t ∈ integer_types -> op ∈ six -> holds t a -> holds t b ->
  exists x, eval_boolean F op (mk t (AInt a)) (mk t (AInt b)) = Ok (mk t_bool (ABool x)) /\
    (x = true <-> order_says Z.lt op a b).
Proof.
  intros Ht Hop Ha Hb. apply integer_name in Ht as [w ->].
  assert (exists c, cmp_of op = Some c) as [c C].
  { unfold six in Hop. rewrite !elem_of_cons, elem_of_nil in Hop.
    destruct Hop as [->|[->|[->|[->|[->|[->|[]]]]]]]; eauto. }
  rewrite (eval_cmp F op c _ _ C), compare_int by done. cbn [rbind].
  eexists. split; [reflexivity|]. apply (six_order Z.lt op c _ a b C). apply z_cmp_order.
Qed.
Print Assumptions C26_integers_one_order.
Theorem C26_strings_one_order F op a b :
  op ∈ six ->
  exists x, eval_boolean F op (mk t_string (AStr a)) (mk t_string (AStr b)) = Ok (mk t_bool (ABool x)) /\
    (x = true <-> order_says before op a b).
Proof.
  intros Hop. assert (exists c, cmp_of op = Some c) as [c C].
  { unfold six in Hop. rewrite !elem_of_cons, elem_of_nil in Hop.
    destruct Hop as [->|[->|[->|[->|[->|[->|[]]]]]]]; eauto. }
  rewrite (eval_cmp F op c _ _ C), compare_string. cbn [rbind].
  eexists. split; [reflexivity|]. apply (six_order before op c _ a b C). apply str_cmp_order.
Qed.
Print Assumptions C26_strings_one_order.
(** Both orders are strict and total. *)
Theorem C26_dictionary_total :
  (forall a, ~ before a a) /\ (forall a b c, before a b -> before b c -> before a c) /\
  (forall a b, before a b \/ a = b \/ before b a).
Proof.
  split_and!.
  - intros a. rewrite before_ltb, str_ltb_irrefl. done.
  - intros a b c. rewrite !before_ltb. apply str_ltb_trans.
  - intros a b. rewrite !before_ltb. destruct (str_ltb a b) eqn:E, (str_ltb b a) eqn:E'; auto. right. left. by apply str_ltb_total.
Qed.
Print Assumptions C26_dictionary_total.
Example C26_ex :
  eval_boolean no_io COMPARE_LESS (mk t_string (AStr ($"abc"))) (mk t_string (AStr ($"abd"))) = Ok (mk t_bool (ABool true)) /\
  eval_boolean no_io COMPARE_GREATER_EQUAL (mk t_int (AInt (-3))) (mk t_int (AInt 2)) = Ok (mk t_bool (ABool false)).
Proof. by vm_compute. Qed.
(** Doubles: exactly one of <, ==, > holds unless an operand is no number, and then none does; != is the negation of ==. *)
Definition double_says F (op : ttype) (a b : spec_float) : Prop :=
  eval_boolean F op (mk t_double (ADouble a)) (mk t_double (ADouble b)) = Ok (mk t_bool (ABool true)).
Lemma double_says_cmp F op c a b : cmp_of op = Some c ->
  double_says F op a b <-> (if ttype_eqb op COMPARE_UNEQUAL then negb (fp_cmp c a b) else fp_cmp c a b) = true.
Proof.
  intros C. unfold double_says. rewrite (eval_cmp F op c _ _ C).
  change (compare_op F c (mk t_double (ADouble a)) (mk t_double (ADouble b))) with (Ok (fp_cmp c a b)). cbn [rbind].
  split; [intros H; by injection H|by intros ->].
Qed.
Lemma SFcompare_nan a b : SFcompare a b = None <-> a = S754_nan \/ b = S754_nan.
Proof.
  destruct a as [[]|[]| |[] ma ea], b as [[]|[]| |[] mb eb]; cbn; try (split; [auto; discriminate|intros [|]; discriminate]); try tauto;
    destruct (ea ?= eb)%Z; try destruct (Pos.compare_cont _ _ _); split; try discriminate; intros [|]; discriminate.
Qed.
Theorem C26_doubles_trichotomy F a b :
  (a <> S754_nan -> b <> S754_nan ->
    (double_says F COMPARE_LESS a b /\ ~ double_says F COMPARE_EQUAL a b /\ ~ double_says F COMPARE_GREATER a b) \/
    (~ double_says F COMPARE_LESS a b /\ double_says F COMPARE_EQUAL a b /\ ~ double_says F COMPARE_GREATER a b) \/
    (~ double_says F COMPARE_LESS a b /\ ~ double_says F COMPARE_EQUAL a b /\ double_says F COMPARE_GREATER a b)) /\
  (a = S754_nan \/ b = S754_nan ->
    forall op, op ∈ six -> (double_says F op a b <-> op = COMPARE_UNEQUAL)) /\
  (double_says F COMPARE_UNEQUAL a b <-> ~ double_says F COMPARE_EQUAL a b) /\
  (double_says F COMPARE_LESS_EQUAL a b <-> double_says F COMPARE_LESS a b \/ double_says F COMPARE_EQUAL a b) /\
  (double_says F COMPARE_GREATER_EQUAL a b <-> double_says F COMPARE_GREATER a b \/ double_says F COMPARE_EQUAL a b).
Proof.
  pose proof (double_says_cmp F COMPARE_LESS CLt a b eq_refl) as H1.
  pose proof (double_says_cmp F COMPARE_EQUAL CEq a b eq_refl) as H2.
  pose proof (double_says_cmp F COMPARE_GREATER CGt a b eq_refl) as H3.
  pose proof (double_says_cmp F COMPARE_UNEQUAL CEq a b eq_refl) as H4.
  pose proof (double_says_cmp F COMPARE_LESS_EQUAL CLe a b eq_refl) as H5.
  pose proof (double_says_cmp F COMPARE_GREATER_EQUAL CGe a b eq_refl) as H6.
  change (ttype_eqb COMPARE_LESS COMPARE_UNEQUAL) with false in H1.
  change (ttype_eqb COMPARE_EQUAL COMPARE_UNEQUAL) with false in H2.
  change (ttype_eqb COMPARE_GREATER COMPARE_UNEQUAL) with false in H3.
  change (ttype_eqb COMPARE_UNEQUAL COMPARE_UNEQUAL) with true in H4.
  change (ttype_eqb COMPARE_LESS_EQUAL COMPARE_UNEQUAL) with false in H5.
  change (ttype_eqb COMPARE_GREATER_EQUAL COMPARE_UNEQUAL) with false in H6.
  cbn match in *. pose proof (SFcompare_nan a b) as N. unfold fp_cmp in *.
  split_and!.
  - intros Na Nb. rewrite H1, H2, H3. clear H1 H2 H3 H4 H5 H6.
    destruct (SFcompare a b) as [[| |]|]; [..|exfalso; tauto]; clear N; intuition discriminate.
  - intros Hn op Hop. apply N in Hn. rewrite Hn in *. unfold six in Hop. rewrite !elem_of_cons, elem_of_nil in Hop.
    destruct Hop as [->|[->|[->|[->|[->|[->|[]]]]]]]; rewrite ?H1, ?H2, ?H3, ?H4, ?H5, ?H6; done.
  - rewrite H4, H2. clear. destruct (SFcompare a b) as [[| |]|]; intuition discriminate.
  - rewrite H5, H1, H2. clear. destruct (SFcompare a b) as [[| |]|]; intuition discriminate.
  - rewrite H6, H3, H2. clear. destruct (SFcompare a b) as [[| |]|]; intuition discriminate.
Qed.
Print Assumptions C26_doubles_trichotomy.
(** Across types equality is not symmetric: 1 == 1.5 holds, 1.5 == 1 does not. *)
Theorem C26_mixed_equality_symmetric_refuted F :
  let one := mk t_int (AInt 1) in let more := mk t_double (ADouble (S754_finite false 3 (-1))) in
  eval_boolean F COMPARE_EQUAL one more = Ok (mk t_bool (ABool true)) /\
  eval_boolean F COMPARE_EQUAL more one = Ok (mk t_bool (ABool false)).
Proof. by vm_compute. Qed.
Print Assumptions C26_mixed_equality_symmetric_refuted.

(** ** C27: conversions round trip *)
Theorem C27_integers_round_trip F t z :
  t ∈ integer_types -> holds t z ->
  (let! s := typecast F (mk t (AInt z)) t_string in typecast F s t) = Ok (mk t (AInt z)).
Proof.
  intros Ht Hz. assert (t ∈ value_types) as Hv.
  { apply integer_name in Ht as [w ->]. apply sdec_iff. destruct w; by vm_compute. }
  assert (typecast F (mk t (AInt z)) t_string = Ok (mk t_string (AStr (print_int z)))) as ->.
  { unfold typecast. rewrite accepts_value by done.
    change (kind_of t_string) with KString. by rewrite bool_decide_eq_false_2. }
  cbn [rbind].
  unfold typecast. rewrite accepts_value by (apply sdec_iff; by vm_compute).
  apply integer_name in Ht as [w ->]. rewrite bool_decide_eq_false_2 by (by destruct w). rewrite kind_int.
  cbn [o_val mk to_int rbind]. apply holds_bits in Hz.
  assert (string_to_int (print_int z) = z) as ->.
  { rewrite <- (app_nil_r (print_int z)). apply string_to_int_print; [|done].
    unfold int64_min, int64_max. destruct w; cbn in Hz; lia. }
  rewrite wrap_id; [done|apply bits_pos|done].
Qed.
Print Assumptions C27_integers_round_trip.
Example C27_integers_round_trip_ex :
  typecast no_io (mk t_int16 (AInt (-32768))) t_string = Ok (mk t_string (AStr ($"-32768"))) /\ holds t_int16 (-32768).
Proof. split; [by vm_compute|]. by vm_compute. Qed.

(** A text is read as the number it starts with: after white space and perhaps a sign, all the digits that follow. *)
Lemma white_space c : white c <-> is_space c = true.
Proof.
  pose proof (Text_Proofs.char_forall (fun c => eqb (bool_decide (c ∈ map ascii_of_nat [9; 10; 11; 12; 13; 32]%nat)) (is_space c)) ltac:(by vm_compute) c) as H.
  cbv beta in H. apply eqb_prop in H. unfold white. by rewrite <- H, bool_decide_eq_true.
Qed.
Lemma digit_char_digit d : (d < 10)%N -> is_digit (digit_char d) = true /\ digit_val (digit_char d) = d.
Proof.
  intros H. assert (d ∈ map N.of_nat (seq 0 10)) as Hd.
  { apply elem_of_list_fmap. exists (N.to_nat d). split; [lia|]. apply elem_of_seq. lia. }
  clear H. cbn in Hd. repeat (apply elem_of_cons in Hd as [->|Hd]; [by vm_compute|]). by apply elem_of_nil in Hd.
Qed.
Lemma starts_digit c s : is_digit c = true -> starts_with_digit (c :: s).
Proof.
  intros H. exists (digit_val c), s.
  pose proof (Text_Proofs.char_forall (fun c => negb (is_digit c) || ((digit_val c <? 10)%N && bool_decide (digit_char (digit_val c) = c))) ltac:(by vm_compute) c) as F.
  cbv beta in F. rewrite H in F. cbn [negb orb] in F. apply andb_true_iff in F as [F1 F2]. apply bool_decide_eq_true in F2.
  apply N.ltb_lt in F1. by rewrite F2.
Qed.
Lemma skip_white w s : Forall white w -> skip_space (w ++ s) = skip_space s.
Proof. induction 1 as [|c w Hc Hw IH]; [done|]. cbn [app skip_space]. apply white_space in Hc. by rewrite Hc. Qed.
Lemma parse_decimal ds rest : Forall (fun d => (d < 10)%N) ds -> ~ starts_with_digit rest ->
  forall acc, Z.of_N (parse_digits acc (map digit_char ds ++ rest)) = (Z.of_N acc * 10 ^ Z.of_nat (length ds) + decimal ds)%Z.
Proof.
  intros Hd Hr. induction Hd as [|d ds Hd _ IH]; intros acc; cbn [map app].
  - replace (parse_digits acc rest) with acc; [cbn; lia|]. destruct rest as [|c rest]; [done|]. cbn [parse_digits].
    destruct (is_digit c) eqn:E; [|done]. by destruct Hr; apply starts_digit.
  - cbn [parse_digits]. destruct (digit_char_digit d Hd) as [-> ->]. rewrite IH. cbn [length decimal].
    rewrite Nat2Z.inj_succ, Z.pow_succ_r by lia. lia.
Qed.
Lemma read_number w sign ds rest : Forall white w -> sign ∈ [[]; $"+"; $"-"] -> ds <> [] -> Forall (fun d => (d < 10)%N) ds -> ~ starts_with_digit rest ->
  string_to_int (w ++ sign ++ map digit_char ds ++ rest) = clamp64 (if decide (sign = $"-") then - decimal ds else decimal ds).
Proof.
  intros Hw Hs Hn Hd Hr. unfold string_to_int. rewrite skip_white by done. pose proof (parse_decimal ds rest Hd Hr 0) as P.
  change (Z.of_N 0) with 0%Z in P. rewrite Z.mul_0_l, Z.add_0_l in P.
  repeat (apply elem_of_cons in Hs as [->|Hs]); [| | |by apply elem_of_nil in Hs].
  - rewrite decide_False by done. destruct ds as [|d ds]; [done|]. apply Forall_cons in Hd as [Hd _]. destruct (digit_char_digit d Hd) as [Hc _].
    cbn [app map skip_space] in P |- *. rewrite (Text_Proofs.digit_not_space _ Hc). rewrite !bool_decide_eq_false_2 by (apply Text_Proofs.digit_not; [done|lia|lia]). by rewrite P.
  - rewrite decide_False by done. change ($"+") with [chr 43]. cbn [app skip_space]. change (is_space (chr 43)) with false. cbv iota.
    change (bool_decide (chr 43 = chr 45)) with false. change (bool_decide (chr 43 = chr 43)) with true. cbv iota. by rewrite P.
  - rewrite decide_True by done. change ($"-") with [chr 45]. cbn [app skip_space]. change (is_space (chr 45)) with false. cbv iota.
    change (bool_decide (chr 45 = chr 45)) with true. cbv iota. by rewrite P.
Qed.
Lemma string_to_integer F s w : typecast F (mk t_string (AStr s)) (int_name w) = Ok (mk (int_name w) (AInt (wrap (bits w) (string_to_int s)))).
Proof.
  unfold typecast. rewrite accepts_value by (apply sdec_iff; by vm_compute).
  rewrite bool_decide_eq_false_2 by (by destruct w). by rewrite kind_int.
Qed.
Theorem C27_text_to_number F t w sign ds rest z :
  t ∈ integer_types -> Forall white w -> sign ∈ [[]; $"+"; $"-"] -> ds <> [] -> Forall (fun d => (d < 10)%N) ds -> ~ starts_with_digit rest ->
  z = (if decide (sign = $"-") then - decimal ds else decimal ds)%Z -> holds t z ->
  typecast F (mk t_string (AStr (w ++ sign ++ map digit_char ds ++ rest))) t = Ok (mk t (AInt z)).
Proof.
  intros Ht Hw Hs Hn Hd Hr -> Hz. apply integer_name in Ht as [v ->]. rewrite string_to_integer, read_number by done.
  apply holds_bits in Hz. set (z := if decide _ then _ else _) in *.
  replace (clamp64 z) with z by (unfold clamp64, int64_min, int64_max; destruct v; cbn in Hz; lia).
  by rewrite wrap_id by (done || apply bits_pos).
Qed.
Print Assumptions C27_text_to_number.
Example C27_text_to_number_ex :
  typecast no_io (mk t_string (AStr (chr 9 :: $" -042 cm"))) t_int = Ok (mk t_int (AInt (-42))) /\
  Forall white [chr 9; chr 32] /\ decimal [0; 4; 2]%N = 42%Z /\ ~ starts_with_digit ($" cm") /\ holds t_int (-42).
Proof.
  split; [by vm_compute|]. split; [repeat constructor; by apply white_space|]. split; [done|]. split; [|by vm_compute].
  intros (d & s & Hd & [= H _]). apply digit_char_digit in Hd as [Hd _]. rewrite <- H in Hd. done.
Qed.
(** Numbers beyond 64 bits become the nearest one that fits. *)
Theorem C27_text_too_large F w sign ds rest :
  Forall white w -> sign ∈ [[]; $"+"; $"-"] -> ds <> [] -> Forall (fun d => (d < 10)%N) ds -> ~ starts_with_digit rest ->
  (2 ^ 63 <= decimal ds)%Z ->
  typecast F (mk t_string (AStr (w ++ sign ++ map digit_char ds ++ rest))) t_int64 =
    Ok (mk t_int64 (AInt (if decide (sign = $"-") then - 2 ^ 63 else 2 ^ 63 - 1)%Z)).
Proof.
  intros Hw Hs Hn Hd Hr Hz. pose proof (string_to_integer F (w ++ sign ++ map digit_char ds ++ rest) W64) as E.
  change (int_name W64) with t_int64 in E. rewrite E, read_number by done. do 3 f_equal.
  destruct (decide (sign = $"-")); unfold clamp64, int64_min, int64_max.
  - replace (Z.max _ _) with (- 2 ^ 63)%Z by lia. done.
  - replace (Z.max _ _) with (2 ^ 63 - 1)%Z by lia. done.
Qed.
Print Assumptions C27_text_too_large.
(** A text without digits in this place is 0. *)
Theorem C27_text_without_number F t w rest :
  t ∈ integer_types -> Forall white w -> ~ starts_with_digit rest ->
  (forall c s, rest = c :: s -> ~ white c /\ ((c = chr 43 \/ c = chr 45) -> ~ starts_with_digit s)) ->
  typecast F (mk t_string (AStr (w ++ rest))) t = Ok (mk t (AInt 0)).
Proof.
  intros Ht Hw Hd Hr. apply integer_name in Ht as [v ->]. rewrite string_to_integer. unfold string_to_int. rewrite skip_white by done.
  assert (forall s, ~ starts_with_digit s -> parse_digits 0 s = 0%N) as P.
  { intros [|c s] Hs; [done|]. cbn [parse_digits]. destruct (is_digit c) eqn:E; [|done]. by destruct Hs; apply starts_digit. }
  destruct rest as [|c s]; [by destruct v|]. destruct (Hr c s eq_refl) as [Hc Hs]. cbn [skip_space].
  destruct (is_space c) eqn:E; [by destruct Hc; apply white_space|].
  repeat case_bool_decide; rewrite P by naive_solver; by destruct v.
Qed.
Print Assumptions C27_text_without_number.
Example C27_text_too_large_ex : (2 ^ 63 <= decimal (repeat 9%N 20))%Z /\
  typecast no_io (mk t_string (AStr ($"-99999999999999999999"))) t_int64 = Ok (mk t_int64 (AInt (- 2 ^ 63))) /\
  typecast no_io (mk t_string (AStr ($" x1"))) t_int = Ok (mk t_int (AInt 0)).
Proof. split; [by vm_compute|]. by vm_compute. Qed.

(** true survives the way through a text. *)
Theorem C27_bool_round_trip_partial F :
  (let! s := typecast F (mk t_bool (ABool true)) t_string in typecast F s t_bool) = Ok (mk t_bool (ABool true)).
Proof. by vm_compute. Qed.
Print Assumptions C27_bool_round_trip_partial.
(** false does not: its text is 0, and that text is true. *)
Theorem C27_bool_round_trip_refuted F :
  (let! s := typecast F (mk t_bool (ABool false)) t_string in typecast F s t_bool) = Ok (mk t_bool (ABool true)).
Proof. by vm_compute. Qed.
Print Assumptions C27_bool_round_trip_refuted.
(** A text is false exactly when it is empty, a line feed or a spelling of false, blanks around it ignored. *)
Theorem C27_text_truth F s :
  typecast F (mk t_string (AStr s)) t_bool = Ok (mk t_bool (ABool false)) <-> falsy s.
Proof.
  change (typecast F (mk t_string (AStr s)) t_bool) with (Ok (mk t_bool (ABool (string_to_bool s)))).
  rewrite <- string_to_bool_false. split; [intros H; by injection H|by intros ->].
Qed.
Print Assumptions C27_text_truth.
Example C27_text_truth_ex : falsy ($"  FaLse ") /\ ~ falsy ($"0") /\ ~ falsy ($"no").
Proof. split_and!; [apply string_to_bool_false|apply string_to_bool_nonfalsy..]; by vm_compute. Qed.

(** A value cast to bool is true exactly when it counts as true. *)
Theorem C27_truth F t v : t ∈ value_types -> proper t v ->
  exists b, typecast F (mk t v) t_bool = Ok (mk t_bool (ABool b)) /\ (b = true <-> truthy v).
Proof.
  intros Ht _. exists (to_bool v). split; [|apply to_bool_truthy]. unfold typecast. by rewrite accepts_value by done.
Qed.
Print Assumptions C27_truth.
Example C27_truth_ex : truthy (AInt (-1)) /\ truthy (ADouble S754_nan) /\ ~ truthy (AFloat (S754_zero true)) /\ ~ truthy (AStr ($" FALSE")).
Proof. split_and!; [done|done|intros H; by destruct (H true)|]. cbn [truthy]. rewrite <- string_to_bool_nonfalsy. by vm_compute. Qed.
(** The connectives on evaluated operands: && is true when both are true, || when one is. *)
Theorem C24_connectives F l r v w : l ∈ value_types -> r ∈ value_types -> proper l v -> proper r w ->
  exists b c, eval_boolean F AND (mk l v) (mk r w) = Ok (mk t_bool (ABool b)) /\ (b = true <-> truthy v /\ truthy w) /\
              eval_boolean F OR (mk l v) (mk r w) = Ok (mk t_bool (ABool c)) /\ (c = true <-> truthy v \/ truthy w).
Proof.
  intros _ _ _ _. exists (to_bool v && to_bool w), (to_bool v || to_bool w). rewrite andb_true_iff, orb_true_iff, !to_bool_truthy.
  unfold eval_boolean, is_true, is_valid. cbn [o_atomic o_val mk]. destruct (to_bool v); cbn [negb andb orb]; split_and!; done.
Qed.
Print Assumptions C24_connectives.
Example C24_connectives_ex :
  eval_boolean no_io AND (mk t_int (AInt 2)) (mk t_string (AStr ($"false"))) = Ok (mk t_bool (ABool false)) /\
  eval_boolean no_io OR (mk t_bool (ABool false)) (mk t_int (AInt 2)) = Ok (mk t_bool (ABool true)).
Proof. by vm_compute. Qed.
(** Integers of up to 53 (24) binary digits become exactly the same double (float), and come back. So every int16 and int
    survives the way through double, and every int16 that through float. *)
Theorem C27_integers_as_double F t z : t ∈ integer_types -> holds t z -> (Z.abs z < 2 ^ 53)%Z ->
  exists x, typecast F (mk t (AInt z)) t_double = Ok (mk t_double (ADouble x)) /\ is_integer x z /\
            typecast F (mk t_double (ADouble x)) t = Ok (mk t (AInt z)).
Proof.
  intros Ht Hh Hz. assert (t ∈ value_types) as Hv by (apply integer_name in Ht as [w ->]; apply sdec_iff; destruct w; by vm_compute).
  exists (d_of_int z). split_and!.
  - unfold typecast. by rewrite accepts_value by done.
  - by apply normalize_is.
  - unfold typecast. rewrite accepts_value by (apply sdec_iff; by vm_compute). apply integer_name in Ht as [w ->].
    rewrite bool_decide_eq_false_2 by (by destruct w). rewrite kind_int. cbn [o_val mk to_int]. unfold d_of_int. rewrite normalize_back by lia. cbn [rbind].
    apply holds_bits in Hh. rewrite wrap_id; [done|apply bits_pos|done].
Qed.
Print Assumptions C27_integers_as_double.
Theorem C27_integers_as_float F t z : t ∈ integer_types -> holds t z -> (Z.abs z < 2 ^ 24)%Z ->
  exists x, typecast F (mk t (AInt z)) t_float = Ok (mk t_float (AFloat x)) /\ is_integer x z /\
            typecast F (mk t_float (AFloat x)) t = Ok (mk t (AInt z)).
Proof.
  intros Ht Hh Hz. assert (t ∈ value_types) as Hv by (apply integer_name in Ht as [w ->]; apply sdec_iff; destruct w; by vm_compute).
  exists (f_of_int z). split_and!.
  - unfold typecast. by rewrite accepts_value by done.
  - by apply normalize_is.
  - unfold typecast. rewrite accepts_value by (apply sdec_iff; by vm_compute). apply integer_name in Ht as [w ->].
    rewrite bool_decide_eq_false_2 by (by destruct w). rewrite kind_int. cbn [o_val mk to_int]. unfold f_of_int. rewrite normalize_back by lia. cbn [rbind].
    apply holds_bits in Hh. rewrite wrap_id; [done|apply bits_pos|done].
Qed.
Print Assumptions C27_integers_as_float.
Example C27_integers_as_double_ex : holds t_int (-2147483648) /\ (Z.abs (-2147483648) < 2 ^ 53)%Z /\ holds t_int16 (-32768) /\ (Z.abs (-32768) < 2 ^ 24)%Z.
Proof. by vm_compute. Qed.
(** Longer ones are not kept: an int through float and an int64 through double lose their last digit. *)
Theorem C27_integers_as_double_refuted F :
  (let! x := typecast F (mk t_int (AInt 16777217)) t_float in typecast F x t_int) = Ok (mk t_int (AInt 16777216)) /\
  (let! x := typecast F (mk t_int64 (AInt 9007199254740993)) t_double in typecast F x t_int64) = Ok (mk t_int64 (AInt 9007199254740992)).
Proof. by vm_compute. Qed.
Print Assumptions C27_integers_as_double_refuted.
(** Every float is a double, and comes back from it. *)
Theorem C27_float_as_double F x : valid_binary 24 128 x = true ->
  exists y, typecast F (mk t_float (AFloat x)) t_double = Ok (mk t_double (ADouble y)) /\ same_number x y /\
            typecast F (mk t_double (ADouble y)) t_float = Ok (mk t_float (AFloat x)).
Proof.
  intros H. apply float_in_double in H as [H1 H2]. exists (d_of_float x). split_and!.
  - unfold typecast. by rewrite accepts_value by (apply sdec_iff; by vm_compute).
  - done.
  - unfold typecast. rewrite accepts_value by (apply sdec_iff; by vm_compute). cbn [o_val mk to_float]. by rewrite H2.
Qed.
Print Assumptions C27_float_as_double.
Example C27_float_as_double_ex : valid_binary 24 128 (S754_finite true 8388609 (-149)) = true /\
  typecast no_io (mk t_float (AFloat (S754_finite true 8388609 (-149)))) t_double = Ok (mk t_double (ADouble (S754_finite true 4503600164241408 (-178)))).
Proof. by vm_compute. Qed.
(** Bools become 0 and 1 as numbers. *)
Theorem C27_bool_as_number F (b : bool) t : t ∈ integer_types ->
  let z := if b then 1%Z else 0%Z in
  typecast F (mk t_bool (ABool b)) t = Ok (mk t (AInt z)) /\
  exists x y, typecast F (mk t_bool (ABool b)) t_double = Ok (mk t_double (ADouble x)) /\ is_integer x z /\
              typecast F (mk t_bool (ABool b)) t_float = Ok (mk t_float (AFloat y)) /\ is_integer y z.
Proof.
  intros Ht. split.
  - apply integer_name in Ht as [w ->]. by destruct w, b.
  - exists (d_of_int (if b then 1 else 0)), (f_of_int (if b then 1 else 0)). split_and!; [by destruct b|apply normalize_is; [lia|lia|by destruct b]|by destruct b|apply normalize_is; [lia|lia|by destruct b]].
Qed.
Print Assumptions C27_bool_as_number.
(** ** Floating-point arithmetic *)
(** + - * and / of doubles (floats) are those of IEEE 754 binary64 (binary32), and always have a result; an integer on the right is
    first cast to the type on the left. *)
Theorem C25_floating F op a b z :
  ieee 53 1024 op a b = Some z -> eval_binary F op (mk t_double (ADouble a)) (mk t_double (ADouble b)) = Ok (mk t_double (ADouble z)).
Proof. by destruct op; intros [= <-]. Qed.
Print Assumptions C25_floating.
Theorem C25_floating_single F op a b z :
  ieee 24 128 op a b = Some z -> eval_binary F op (mk t_float (AFloat a)) (mk t_float (AFloat b)) = Ok (mk t_float (AFloat z)).
Proof. by destruct op; intros [= <-]. Qed.
Print Assumptions C25_floating_single.
Theorem C25_floating_mixed F op a t n x : t ∈ integer_types -> op ∈ [MATH_ADDITION; MATH_SUBTRACT; MATH_MULTIPLY; MATH_DIVIDE] ->
  (typecast F (mk t (AInt n)) t_double = Ok (mk t_double (ADouble x)) ->
   eval_binary F op (mk t_double (ADouble a)) (mk t (AInt n)) = eval_binary F op (mk t_double (ADouble a)) (mk t_double (ADouble x))) /\
  (typecast F (mk t (AInt n)) t_float = Ok (mk t_float (AFloat x)) ->
   eval_binary F op (mk t_float (AFloat a)) (mk t (AInt n)) = eval_binary F op (mk t_float (AFloat a)) (mk t_float (AFloat x))).
Proof.
  intros Ht Hop. apply integer_name in Ht as [w ->]. rewrite !elem_of_cons, elem_of_nil in Hop.
  split; intros H; destruct w; injection H as <-; by destruct Hop as [->|[->|[->|[->|[]]]]].
Qed.
Print Assumptions C25_floating_mixed.
Example C25_floating_ex :
  eval_binary no_io MATH_DIVIDE (mk t_double (ADouble (S754_finite false 3 0))) (mk t_int (AInt 0)) = Ok (mk t_double (ADouble (S754_infinity false))) /\
  ieee 53 1024 MATH_ADDITION (d_of_int 1) (d_of_int 2) = Some (d_of_int 3).
Proof. by vm_compute. Qed.
(** The text of true is 1 and that of false 0. *)
Theorem C27_bool_as_text F (b : bool) :
  typecast F (mk t_bool (ABool b)) t_string = Ok (mk t_string (AStr (if b then $"1" else $"0"))).
Proof. by destruct b. Qed.
Print Assumptions C27_bool_as_text.
Example C27_bool_as_text_ex : eval_binary no_io MATH_ADDITION (mk t_string (AStr ($"x="))) (mk t_bool (ABool false)) = Ok (mk t_string (AStr ($"x=0"))).
Proof. by vm_compute. Qed.
(** References to objects count as true exactly when they are not null (0). *)
Theorem C24_references F l r v w a b :
  exists p q, eval_boolean F AND (Obj l false false true a v) (Obj r false false true b w) = Ok (mk t_bool (ABool p)) /\
              (p = true <-> a <> 0%N /\ b <> 0%N) /\
              eval_boolean F OR (Obj l false false true a v) (Obj r false false true b w) = Ok (mk t_bool (ABool q)) /\
              (q = true <-> a <> 0%N \/ b <> 0%N).
Proof.
  exists (negb (a =? 0)%N && negb (b =? 0)%N), (negb (a =? 0)%N || negb (b =? 0)%N).
  rewrite andb_true_iff, orb_true_iff, !negb_true_iff, !N.eqb_neq. unfold eval_boolean, is_true, is_valid. cbn [o_atomic o_ref].
  destruct (a =? 0)%N; cbn [negb andb orb]; split_and!; done.
Qed.
Print Assumptions C24_references.
Example C24_references_ex :
  eval_boolean no_io AND (Obj ($"Car") false false true 3 (AInt 0)) (Obj ($"Car") false false true 0 (AInt 0)) = Ok (mk t_bool (ABool false)).
Proof. by vm_compute. Qed.
(** An operand of a class cannot be combined with a value: every operator throws, whatever the values; and so do floats with bools. *)
Theorem C24_objects_refused F l op r v a w :
  l ∈ value_types -> proper l v -> op ∈ combining -> r ∉ value_types -> r <> t_enum ->
  eval_binary F op (mk l v) (Obj r false false true a w) = Throw "InvalidOperation".
Proof.
  intros Hl Hv Hop Hr He.
  assert (forall x y, accepts x y (Obj r false false true a w) = false) as A.
  { intros x y. unfold accepts. cbn [o_type o_enum].
    assert (forall t, t ∈ value_types -> str_eqb r t = false) as N.
    { intros t Ht. apply not_true_iff_false. rewrite str_eqb_eq. by intros ->. }
    rewrite (N t_bool), (N t_double), (N t_float), (N t_int16), (N t_int), (N t_int64), (N t_string) by (apply sdec_iff; by vm_compute).
    replace (str_eqb r t_enum) with false by (symmetry; apply not_true_iff_false; by rewrite str_eqb_eq).
    by destruct x, y. }
  assert (exists o, aop_of op = Some o) as [o Eo].
  { clear -Hop. apply elem_of_list_In in Hop. cbn in Hop. repeat destruct Hop as [<-|Hop]; try (eexists; reflexivity). done. }
  rewrite (eval_binary_eq F op o) by done. unfold binary_op, int_binary, double_binary, float_binary, string_binary. rewrite !A.
  cbn [o_type mk]. destruct v; cbn [proper] in Hv; subst;
    try (change (kind_of t_bool) with KBool); try (change (kind_of t_double) with KDouble); try (change (kind_of t_float) with KFloat);
    try (change (kind_of t_string) with KString); try (by destruct o).
  destruct Hv as [Hv _]. apply integer_name in Hv as [w' ->]. rewrite kind_int. cbn [o_val mk to_int rbind]. by destruct o, w'.
Qed.
Print Assumptions C24_objects_refused.
Theorem C24_float_with_bool_refused F op v b : op ∈ combining ->
  eval_binary F op (mk t_float v) (mk t_bool (ABool b)) = Throw "InvalidOperation".
Proof.
  intros Hop. assert (exists o, aop_of op = Some o) as [o Eo].
  { clear -Hop. apply elem_of_list_In in Hop. cbn in Hop. repeat destruct Hop as [<-|Hop]; try (eexists; reflexivity). done. }
  rewrite (eval_binary_eq F op o) by done. rewrite binary_float. unfold float_binary.
  change (accepts false false (mk t_bool (ABool b))) with false. by destruct o.
Qed.
Print Assumptions C24_float_with_bool_refused.
Example C24_objects_refused_ex :
  MATH_ADDITION ∈ combining /\ proper t_string (AStr ($"a")) /\
  eval_binary no_io MATH_ADDITION (mk t_string (AStr ($"a"))) (Obj ($"Car") false false true 3 (AInt 0)) = Throw "InvalidOperation".
Proof. split_and!; [apply elem_of_list_In; cbn; tauto|done|by vm_compute]. Qed.
