(** What holds of everything the reader of declarations accepts, and that it always ends. *)
From Verif Require Import Base Base_Proofs Text_Model TypeTable Tok_Model Parse_Model Parse_Spec Parse_Brackets Enum_Model Enum_Spec
  Enum_Proofs Enum_Props Decl_Model Decl_Spec Decl_Proofs.
From Coq Require Import Sorting.Sorted.

Lemma rb_ok {A B} (x : res A) (f : A -> res B) b : rbind x f = Ok b -> exists a, x = Ok a /\ f a = Ok b.
Proof. destruct x; simpl; try done. eauto. Qed.
Ltac rb H x Hx := apply rb_ok in H as (x & Hx & H).

(** ** Values *)
Lemma eqb_yes a b : str_eqb a b = true -> a = b.
Proof. apply bool_decide_eq_true. Qed.
Lemma parse_value_fits ts ty v r : parse_value ts ty = Ok (v, r) -> fits ty v.
Proof.
  unfold parse_value. destruct ts as [|m ts]; [done|]. destruct (if is m MATH_SUBTRACT then ts else m :: ts) as [|t ts']; [done|].
  assert (Hb : forall x, negb (str_eqb ty x) = false -> ty = x) by (intros x Hx; apply negb_false_iff in Hx; by apply eqb_yes).
  destruct (k_type t); try (by destruct (is m MATH_SUBTRACT)).
  - destruct (negb (str_eqb ty t_bool)) eqn:E; [done|]. destruct (is m MATH_SUBTRACT); [done|]. intros [= <- _]. by apply Hb.
  - destruct (negb (str_eqb ty t_double)) eqn:E; [done|]. intros [= <- _]. by apply Hb.
  - destruct (negb (str_eqb ty t_float)) eqn:E; [done|]. intros [= <- _]. by apply Hb.
  - destruct (str_eqb ty t_int16) eqn:E1. { intros [= <- _]. left. split; [by apply eqb_yes|]. unfold to_int16.
      match goal with |- context [(?a mod 65536)%Z] => pose proof (Z.mod_pos_bound a 65536 ltac:(lia)) end. lia. }
    destruct (str_eqb ty t_int) eqn:E2. { intros [= <- _]. right. left. by apply eqb_yes. }
    destruct (str_eqb ty t_int64) eqn:E3; [|done]. intros [= <- _]. right. right. by apply eqb_yes.
  - destruct (negb (str_eqb ty t_string)) eqn:E; [done|]. destruct (is m MATH_SUBTRACT); [done|]. intros [= <- _]. by apply Hb.
  - destruct (existsb (str_eqb ty) atomic_names) eqn:E; [done|]. destruct (negb _); [done|]. destruct (is m MATH_SUBTRACT); [done|].
    intros [= <- _]. cbn [fits]. intros Hin. apply not_true_iff_false in E. apply E. apply existsb_exists. exists ty.
    split; [by apply elem_of_list_In|]. by apply bool_decide_eq_true.
Qed.
Lemma parse_param_sound ts p r : parse_param ts = Ok (p, r) -> sound_param p.
Proof.
  unfold parse_param. intros H. rb H a Ea. rb H n En. rb H m Em. rb H ac Eac. rb H d Ed.
  assert (forall v, d.1 = Some v -> n.1 <> [] /\ fits (td_name a.1) v) as Hd.
  { intros v Hv. destruct (ac.2) as [|t ts']; [done|]. destruct (is t ASSIGN); [|by injection Ed as <-].
    case_bool_decide as Hn; [done|]. rb Ed v' Ev. rb Ed r2 Er. injection Ed as <-. cbn in Hv. injection Hv as <-.
    split; [done|]. destruct v' as [v' w]. by eapply parse_value_fits. }
  intros v. destruct (d.1) as [v'|] eqn:E1.
  - destruct (ac.1) eqn:E2; [|done|]; injection H as <- <-; cbn; rewrite ?E1, ?E2; (intros [= <-]; destruct (Hd _ eq_refl); done).
  - destruct (ac.1) eqn:E2; injection H as <- <-; cbn; by rewrite ?E1.
Qed.
Lemma params_sound fuel : forall ts ps r, params_loop fuel ts = Ok (ps, r) -> Forall sound_param ps.
Proof.
  induction fuel as [|fuel IH]; intros ts ps r; [done|]. cbn [params_loop]. destruct ts as [|t ts]; [done|].
  destruct (is t PARENTHESIS_CLOSE). { by intros [= <- _]. }
  intros H. rb H p Ep. destruct p as [p q]. cbn [snd fst] in H. apply parse_param_sound in Ep. destruct q as [|c q]; [done|].
  destruct (is c PARENTHESIS_CLOSE). { injection H as <- _. by apply Forall_singleton. }
  rb H x Ex. destruct x as [x y]. injection H as <- _. constructor; [done|]. by eapply IH.
Qed.
Lemma parse_params_sound ts ps r : parse_params ts = Ok (ps, r) -> Forall sound_param ps.
Proof. unfold parse_params. intros H. rb H x Ex. rb H y Ey. by eapply params_sound. Qed.

(** ** Lengths: every reader returns a rest of its tokens *)
Ltac ok H := repeat match type of H with
  | rbind _ _ = Ok _ => let x := fresh "x" in let E := fresh "E" in rb H x E
  | Ok _ = Ok _ => injection H; clear H; intros; subst
  end.
Lemma word_len {A} ty (conv : str -> A) d ts x r : parse_word ty conv d ts = Ok (x, r) -> (length r <= length ts)%nat.
Proof. unfold parse_word. destruct ts as [|t ts]; [done|]. destruct (is t ty); intros [= _ <-]; cbn; lia. Qed.
Lemma access_len d ts x r : parse_access d ts = Ok (x, r) -> (length r <= length ts)%nat.
Proof. unfold parse_access. destruct ts as [|t ts]; [done|]. destruct (_ || _); intros [= _ <-]; cbn; lia. Qed.
Lemma exceptions_len d ts x r : parse_exceptions d ts = Ok (x, r) -> (length r <= length ts)%nat.
Proof. unfold parse_exceptions. destruct ts as [|t ts]; [done|]. destruct (to_throwing _); intros [= _ <-]; cbn; lia. Qed.
Lemma identify_len acc : forall ts x r, identify_loop acc ts = Ok (x, r) -> (length r < length ts)%nat.
Proof.
  intros ts. remember (length ts) as n eqn:En. assert (Hn : (length ts <= n)%nat) by lia. rewrite En. clear En. revert acc ts Hn.
  induction n as [|n IH]; intros acc ts Hn x r; destruct ts as [|t ts]; try done; cbn [length] in Hn; [lia|]. cbn [identify_loop length].
  destruct (is t IDENTIFIER); [|intros [= _ <-]; lia]. destruct ts as [|s ts]; [done|]. destruct (is s OPERATOR_SCOPE).
  - destruct ts as [|u ts]; [done|]. intros H. apply IH in H; cbn [length] in *; lia.
  - intros [= _ <-]. cbn. lia.
Qed.
Lemma identify_len' ts x r : identify ts = Ok (x, r) -> (length r < length ts)%nat.
Proof. unfold identify. destruct ts as [|t ts]; [done|]. apply identify_len. Qed.
Lemma design_len : forall ts x r, design_loop ts = Ok (x, r) -> (length r <= length ts)%nat.
Proof.
  intros ts. remember (length ts) as n eqn:En. assert (Hn : (length ts <= n)%nat) by lia. rewrite En. clear En. revert ts Hn.
  induction n as [|n IH]; intros ts Hn x r; destruct ts as [|t ts]; try done; cbn [length] in Hn; [lia|]. cbn [design_loop length].
  destruct (is t COMPARE_GREATER); [intros [= _ <-]; lia|]. destruct ts as [|c ts]; [done|]. cbn [length] in *.
  destruct (is c COLON).
  - destruct ts as [|k ts]; [done|]. cbn [length] in *. destruct (is k IDENTIFIER); [|done]. destruct ts as [|m ts]; [done|]. cbn [length] in *. intros H. rb H y Ey.
    destruct y as [y z]. injection H as _ <-. destruct (is m COMMA); apply IH in Ey; cbn [length] in *; lia.
  - intros H. rb H y Ey. destruct y as [y z]. injection H as _ <-. destruct (is c COMMA); apply IH in Ey; cbn [length] in *; lia.
Qed.
Lemma collect_design_len ts x r : collect_design ts = Ok (x, r) -> (length r <= length ts)%nat.
Proof.
  unfold collect_design. destruct ts as [|t ts]; [done|]. destruct (is t COMPARE_LESS); [|by intros [= _ <-]].
  intros H. apply design_len in H. cbn. lia.
Qed.
Lemma type_len ts x r : parse_type ts = Ok (x, r) -> (length r < length ts)%nat.
Proof.
  unfold parse_type. intros H. rb H a Ea. rb H b Eb. rb H c Ec. destruct a, b, c. injection H as _ <-. cbn [snd fst] in *.
  apply identify_len' in Ea. apply collect_design_len in Eb. apply word_len in Ec. lia.
Qed.
Lemma value_len ts ty v r : parse_value ts ty = Ok (v, r) -> (length r <= length ts)%nat.
Proof.
  unfold parse_value. destruct ts as [|m ts]; [done|]. remember (if is m MATH_SUBTRACT then ts else m :: ts) as ts1 eqn:E1.
  assert (Hl : (length ts1 <= S (length ts))%nat) by (subst; destruct (is _ _); cbn; lia).
  destruct ts1 as [|t ts']; [done|]. cbn [length] in *. clear E1. intros H.
  assert (r = t :: ts'); [|by subst].
  destruct (k_type t); repeat (match type of H with (if ?b then _ else _) = _ => destruct b end; try done); by injection H as _ <-.
Qed.
Lemma next_len ts r : next ts = Ok r -> (length r < length ts)%nat.
Proof. destruct ts; [done|]. intros [= <-]. cbn. lia. Qed.
Lemma param_len ts p r : parse_param ts = Ok (p, r) -> (length r <= length ts)%nat.
Proof.
  unfold parse_param. intros H. rb H a Ea. rb H n En. rb H m Em. rb H ac Eac. rb H d Ed. destruct a as [a q], n as [n q1], m as [m q2], ac as [ac q3], d as [d q4].
  cbn [fst snd] in *. apply type_len in Ea. apply word_len in Em. apply access_len in Eac.
  assert (length q1 <= length q)%nat.
  { destruct q as [|t q]; [done|]. destruct (is t IDENTIFIER); injection En as _ <-; cbn; lia. }
  assert (length q4 <= length q3)%nat.
  { destruct q3 as [|t q3]; [done|]. destruct (is t ASSIGN); [|by injection Ed as _ <-]. case_bool_decide; [done|]. rb Ed v Ev. rb Ed r2 Er.
    destruct v as [v w]. injection Ed as _ <-. apply value_len in Ev. apply next_len in Er. cbn in *. lia. }
  destruct d, ac; try done; injection H as _ <-; lia.
Qed.
Lemma params_len fuel : forall ts ps r, params_loop fuel ts = Ok (ps, r) -> (length r <= length ts)%nat.
Proof.
  induction fuel as [|fuel IH]; intros ts ps r; [done|]. cbn [params_loop]. destruct ts as [|t ts]; [done|].
  destruct (is t PARENTHESIS_CLOSE). { by intros [= _ <-]. }
  intros H. rb H p Ep. destruct p as [p q]. cbn [snd fst] in H. apply param_len in Ep. destruct q as [|c q]; [done|].
  destruct (is c PARENTHESIS_CLOSE). { by injection H as _ <-. }
  rb H x Ex. destruct x as [x y]. injection H as _ <-. apply IH in Ex. cbn in *. lia.
Qed.
Lemma parse_params_len ts ps r : parse_params ts = Ok (ps, r) -> (length r <= length ts)%nat.
Proof. unfold parse_params. intros H. rb H x Ex. rb H y Ey. apply params_len in H. apply next_len in Ey. lia. Qed.
Lemma inherit_len fuel : forall repl k ts l r, inherit_loop fuel repl k ts = Ok (l, r) -> (length r <= length ts)%nat.
Proof.
  induction fuel as [|fuel IH]; intros repl k ts l r; [done|].
  assert (Ha : forall repl k ts l r, ancestor_of (inherit_loop fuel repl k) k ts = Ok (l, r) -> (length r <= length ts)%nat).
  { clear - IH. intros repl k ts l r. unfold ancestor_of. destruct ts as [|t ts]; [done|]. destruct (is t IDENTIFIER); [|by intros [= _ <-]].
    intros H. rb H a Ea. rb H c Ec. rb H x Ex. destruct a, c, x. injection H as _ <-. cbn [snd fst] in *.
    apply identify_len' in Ea. apply collect_design_len in Ec. apply IH in Ex. lia. }
  cbn [inherit_loop]. destruct ts as [|t ts]; [done|]. destruct (relation_word _) as [k'|].
  - destruct repl; [done|]. intros H. apply Ha in H. cbn. lia.
  - destruct (is t COMMA); intros H; [apply IH in H|apply Ha in H]; cbn in *; lia.
Qed.
Lemma inheritance_len ts l r : collect_inheritance ts = Ok (l, r) -> (length r <= length ts)%nat.
Proof. unfold collect_inheritance. destruct ts as [|t ts]; [done|]. destruct (is t _); [apply inherit_len|by intros [= _ <-]]. Qed.
Lemma scope_len ts b r : parser_collect_scope ts = Ok (b, r) -> (length r < length ts /\ length b < length ts)%nat.
Proof. intros H. apply parser_collect_iff in H as (o & c & r' & -> & -> & _). cbn. rewrite app_length. cbn. lia. Qed.
Lemma path_len sep : forall ts x r, path_loop sep ts = Ok (x, r) -> (length r <= length ts)%nat.
Proof.
  intros ts. remember (length ts) as n eqn:En. assert (Hn : (length ts <= n)%nat) by lia. rewrite En. clear En. revert ts Hn.
  induction n as [|n IH]; intros ts Hn x r; destruct ts as [|t ts]; try done; cbn [length] in Hn; [lia|]. cbn [path_loop length].
  destruct (is t IDENTIFIER); [|by intros [= _ <-]]. destruct ts as [|s ts]; [done|]. destruct (is s OPERATOR_SCOPE).
  - intros H. rb H y Ey. destruct y. injection H as _ <-. cbn [length] in *. apply IH in Ey; lia.
  - intros [= _ <-]. cbn. lia.
Qed.
Lemma names_len : forall ts x r, names_loop ts = Ok (x, r) -> (length r <= length ts)%nat.
Proof.
  intros ts. remember (length ts) as n eqn:En. assert (Hn : (length ts <= n)%nat) by lia. rewrite En. clear En. revert ts Hn.
  induction n as [|n IH]; intros ts Hn x r; destruct ts as [|t ts]; try done; cbn [length] in Hn; [lia|]. cbn [names_loop length].
  destruct (is t IDENTIFIER); [|by intros [= _ <-]]. destruct ts as [|s ts]; [done|]. intros H. rb H y Ey. destruct y. injection H as _ <-.
  cbn [length] in *. destruct (is s OPERATOR_SCOPE); apply IH in Ey; cbn [length] in *; lia.
Qed.
Lemma create_import_len ts d r : create_import ts = Ok (d, r) -> (length r <= length ts)%nat.
Proof.
  unfold create_import. intros H. rb H u Eu. rb H q Enx. apply next_len in Enx. destruct q as [|t q]; [done|]. rb H p Ep. rb H w Ew. destruct p. injection H as _ <-.
  apply path_len in Ep. cbn [snd length] in *. destruct (str_eqb _ _); cbn [length] in *; lia.
Qed.
Lemma create_enum_len ts d r : create_enum ts = Ok (d, r) -> (length r <= length ts)%nat.
Proof.
  unfold create_enum. intros H. rb H v Ev. rb H f Ef. destruct v, f. cbn [fst snd] in *. apply word_len in Ev, Ef. destruct l0 as [|w q]; [done|].
  destruct (negb _); [by destruct q|]. rb H t Et. destruct t. cbn [fst snd] in *. apply type_len in Et. destruct (td_args _); [|by destruct l0].
  rb H b Eb. rb H es Ees. destruct b. injection H as _ <-. apply scope_len in Eb as [Eb _]. cbn [fst snd length] in *. lia.
Qed.
Lemma create_member_len sc v l f t n ts d r : create_member sc v l f t n ts = Ok (d, r) -> (length r <= length ts)%nat.
Proof.
  unfold create_member. intros H. rb H m Em. rb H a Ea. destruct m, a. cbn [fst snd] in *. apply word_len in Em. apply access_len in Ea.
  destruct (_ && _); [by destruct l1|]. rb H x Ex. rb H u Eu. destruct x as [x q]. injection H as _ <-. cbn [fst snd] in *.
  destruct l1 as [|y l1]; [done|]. destruct (is y ASSIGN).
  - rb Ex w Ew. rb Ex r2 Er. destruct w. injection Ex as _ <-. apply value_len in Ew. apply next_len in Er. cbn in *. lia.
  - injection Ex as _ <-. lia.
Qed.
Lemma create_method_len i sc v l f t n ts d r : create_method i sc v l f t n ts = Ok (d, r) -> (length r <= length ts)%nat.
Proof.
  unfold create_method. destruct (i && _); [done|]. intros H. rb H ps Eps. rb H q Enx. rb H m Em. rb H e Ee. destruct ps, m, e. cbn [fst snd] in *.
  apply parse_params_len in Eps. apply next_len in Enx. apply word_len in Em. apply exceptions_len in Ee.
  destruct l3 as [|x l3]; [done|]. destruct (_ && _ && _); [done|]. rb H b Eb. destruct (match sc with Space => _ | _ => _ end); [done|].
  destruct b as [b w]. injection H as _ <-. cbn [fst snd] in *.
  destruct (is x _).
  - destruct (match l with Abstract => true | _ => false end); [done|]. rb Eb c Ec. destruct c. injection Eb as _ <-. apply scope_len in Ec. cbn in *. lia.
  - destruct (_ && _); [done|]. injection Eb as _ <-. lia.
Qed.
Lemma create_mm_len i sc ts d r : create_member_or_method i sc ts = Ok (d, r) -> (length r <= length ts)%nat.
Proof.
  unfold create_member_or_method. intros H. rb H v Ev. rb H l El. rb H f Ef. rb H t Et. destruct v as [v q1], l as [l q2], f as [f q3], t as [t q4]. cbn [fst snd] in *.
  apply word_len in Ev, Ef. apply type_len in Et.
  assert (length q2 <= length q1)%nat.
  { destruct i; [by injection El as _ <-|]. destruct sc; [by injection El as _ <-|]. by apply word_len in El. }
  destruct q4 as [|n q4]; [done|]. destruct q4 as [|x q4]; [done|]. destruct (is x _); [apply create_method_len in H|apply create_member_len in H]; cbn in *; lia.
Qed.
Lemma create_one_len go sc i ts d i' r : create_one go sc i ts = Ok (d, i', r) -> (length r <= length ts)%nat.
Proof.
  unfold create_one. intros H. rb H o Eo. destruct o.
  { rb H v Ev. rb H f Ef. rb H l El. destruct v as [v q1], f as [f q2], l as [l q3]. cbn [fst snd] in *. apply word_len in Ev, Ef, El.
    destruct l; try (by destruct q3);
      (rb H q Enx; rb H t Et; rb H an Ean; destruct t as [t q5], an as [an q6]; cbn [fst snd] in *; apply next_len in Enx; apply type_len in Et;
       apply inheritance_len in Ean; destruct q6 as [|x q6]; [done|]; destruct (negb _ && negb _);
       [rb H b Eb; destruct b as [b q7]; apply scope_len in Eb; cbn [fst snd] in *|];
       (destruct (_ && _); [done|]); (destruct (td_mut t) eqn:Em; [done|..]); try (rb H ds Eds); injection H as _ _ <-; lia). }
  rb H e Ee. destruct e. { rb H x Ex. destruct x. injection H as _ _ <-. by apply create_enum_len in Ex. }
  rb H it Eit. destruct it.
  { rb H v Ev. rb H f Ef. rb H q Enx. rb H t Et. destruct v as [v q1], f as [f q2], t as [t q4]. cbn [fst snd] in *. apply word_len in Ev, Ef.
    apply next_len in Enx. apply type_len in Et. destruct (td_mut t) eqn:Em; [by destruct q4|..];
    (rb H an Ean; rb H u Eu; destruct an as [an q5]; cbn [fst snd] in *; apply inheritance_len in Ean; destruct (negb _); [done|];
     rb H b Eb; rb H ds Eds; destruct b as [b q7]; apply scope_len in Eb; injection H as _ _ <-; cbn [fst snd] in *; lia). }
  rb H m Em. destruct m. { rb H x Ex. destruct x. injection H as _ _ <-. by apply create_import_len in Ex. }
  rb H n En. destruct n.
  { destruct sc; [|done]. rb H v Ev. rb H f Ef. rb H q Enx. rb H p Ep. rb H b Eb. rb H ds Eds. destruct v as [v q1], f as [f q2], p as [p q4], b as [b q5]. cbn [fst snd] in *.
    apply word_len in Ev, Ef. apply next_len in Enx. apply names_len in Ep. apply scope_len in Eb. injection H as _ _ <-. lia. }
  rb H x Ex. destruct x. injection H as _ _ <-. by apply create_mm_len in Ex.
Qed.
