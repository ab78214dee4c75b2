(** The reader of declarations accepts the grammar: the main theorem. *)
From Verif Require Import Base Base_Proofs Text_Model TypeTable Tok_Model Parse_Model Parse_Spec Parse_Brackets Enum_Model Enum_Spec
  Enum_Proofs Decl_Model Decl_Spec Decl_Proofs Decl_Proofs2 Decl_Proofs3.

Lemma word_head w c s : sym RESERVED_WORD s c -> s <> w -> ~ sym RESERVED_WORD w c.
Proof. intros [_ H1] H [_ H2]. congruence. Qed.
Lemma ident_head w c : k_type c = IDENTIFIER -> ~ sym RESERVED_WORD w c.
Proof. intros H [H2 _]. congruence. Qed.
Lemma word_types c : k_type c = RESERVED_WORD \/ k_type c = IDENTIFIER -> k_type c ∉ lead_types /\ k_type c ∉ optional_types.
Proof. intros [->| ->]; split; notin. Qed.
(** Which tests fail. *)
Definition no_word (w : str) (ts : list token) : Prop := exists a c r, ts = a ++ c :: r /\ leads a /\ Forall marked (a ++ [c]) /\
  (k_type c = RESERVED_WORD \/ k_type c = IDENTIFIER) /\ ~ sym RESERVED_WORD w c.
Lemma object_no ts : no_word ($"object") ts -> is_object ts = Ok false.
Proof. intros (a & c & r & -> & Ha & _ & Hc & Hw). apply is_object_no; [done|by apply word_types|done]. Qed.
Lemma enum_no ts : no_word ($"enum") ts -> is_enum ts = Ok false.
Proof. intros (a & c & r & -> & Ha & Hm & Hc & Hw). apply check_no; try done. by apply word_types. Qed.
Lemma interface_no ts : no_word ($"interface") ts -> is_interface ts = Ok false.
Proof. intros (a & c & r & -> & Ha & _ & Hc & Hw). apply is_interface_no; [done|by apply word_types|done]. Qed.
Lemma import_no ts : no_word ($"import") ts -> is_import ts = Ok false.
Proof. intros (a & c & r & -> & Ha & Hm & Hc & Hw). apply check_no; try done. by apply word_types. Qed.
Lemma namespace_no ts : no_word ($"namespace") ts -> is_namespace ts = Ok false.
Proof. intros (a & c & r & -> & Ha & _ & Hc & Hw). apply is_namespace_no; [done|by apply word_types|done]. Qed.
Lemma no_word_of a c z s w : leads a -> Forall marked (a ++ c :: z) -> sym RESERVED_WORD s c -> s <> w -> forall r, no_word w (a ++ c :: r).
Proof.
  intros Ha Hm Hs Hne r. exists a, c, r. split_and!; [done..| | |by eapply word_head].
  - rewrite Forall_app in Hm |- *. destruct Hm as [H1 H2]. apply Forall_cons in H2 as [H2 _]. split; [done|]. by apply Forall_singleton.
  - left. by destruct Hs.
Qed.
Lemma no_word_ident a c z w : leads a -> Forall marked (a ++ c :: z) -> k_type c = IDENTIFIER -> forall r, no_word w (a ++ c :: r).
Proof.
  intros Ha Hm Hs r. exists a, c, r. split_and!; [done..| | |by apply ident_head].
  - rewrite Forall_app in Hm |- *. destruct Hm as [H1 H2]. apply Forall_cons in H2 as [H2 _]. split; [done|]. by apply Forall_singleton.
  - by right.
Qed.
Lemma check_yes_one (t w i : token) (z : list token) s : marked w -> marked i -> sym RESERVED_WORD s w -> s <> [] -> ident i ->
  check_loop (w :: i :: z) [(RESERVED_WORD, s); (IDENTIFIER, [])] = Ok true.
Proof.
  intros Hw Hi [Hw1 Hw2] Hne [Hi1 _]. cbn [check_loop].
  assert (k_opt w = false) as ->.
  { destruct (k_opt w) eqn:E; [|done]. apply Hw in E. rewrite Hw1 in E. exfalso. revert E. notin. }
  replace (is w RESERVED_WORD) with true by (symmetry; by apply is_spec). cbn [negb]. rewrite Hw2. unfold str_eqb.
  rewrite (bool_decide_eq_true_2 (s = s)) by done. rewrite andb_false_r. cbn [check_loop].
  assert (k_opt i = false) as ->.
  { destruct (k_opt i) eqn:E; [|done]. apply Hi in E. rewrite Hi1 in E. exfalso. revert E. notin. }
  replace (is i IDENTIFIER) with true by (symmetry; by apply is_spec). cbn [negb]. cbn. by destruct z.
Qed.
Lemma check_skip t z e : k_opt t = true -> (exists g r, z = g :: r /\ k_opt g = false) -> e <> [] -> check_loop (t :: z) e = check_loop z e.
Proof. intros Ht (g & r & -> & Hg) He. destruct e as [|[ty s] e]; [done|]. cbn [check_loop]. by rewrite Ht, Hg. Qed.
Lemma type_head t td r : type_of t td -> exists i y, t ++ r = i :: y /\ ident i /\ i ∈ t.
Proof.
  intros [p ns a xs m v Hp _ _]. rewrite <- !app_assoc. destruct Hp as [i Hi|i d ts ns' Hi _ _]; cbn [app];
    eexists i, _; (split; [reflexivity|]); (split; [done|]); left.
Qed.
Lemma no_run_loop_ok p ns r L : path p ns -> starts L r -> OPERATOR_SCOPE ∉ L -> path_loop ($".") (p ++ r) = Ok (dotted ns, r).
Proof.
  intros Hp (h & r' & -> & Hh) HL. induction Hp as [t [Ht _]|t d ts ns [Ht _] [Hd _] Hp IH]; cbn [app path_loop].
  - replace (is t IDENTIFIER) with true by (symmetry; by apply is_spec).
    replace (is h OPERATOR_SCOPE) with false; [done|]. symmetry. apply is_not. intros E. by rewrite E in Hh.
  - replace (is t IDENTIFIER) with true by (symmetry; by apply is_spec). replace (is d OPERATOR_SCOPE) with true by (symmetry; by apply is_spec).
    rewrite IH. cbn [rbind fst snd]. destruct ns; [by destruct Hp|]. done.
Qed.
Lemma names_loop_ok p ns o r : path p ns -> k_type o = BRACKET_CURLY_OPEN -> names_loop (p ++ o :: r) = Ok (ns, o :: r).
Proof.
  intros Hp Ho.
  assert (Hend : names_loop (o :: r) = Ok ([], o :: r)).
  { cbn [names_loop]. by replace (is o IDENTIFIER) with false by (symmetry; apply is_not; rewrite Ho; done). }
  induction Hp as [t [Ht _]|t d ts ns [Ht _] [Hd _] Hp IH]; cbn [app].
  - remember (o :: r) as z eqn:Ez. cbn [names_loop]. replace (is t IDENTIFIER) with true by (symmetry; by apply is_spec).
    subst z. replace (is o OPERATOR_SCOPE) with false by (symmetry; apply is_not; rewrite Ho; done). by rewrite Hend.
  - remember (ts ++ o :: r) as z eqn:Ez. cbn [names_loop]. replace (is t IDENTIFIER) with true by (symmetry; by apply is_spec).
    replace (is d OPERATOR_SCOPE) with true by (symmetry; by apply is_spec). by rewrite IH.
Qed.
Lemma groups_not_replicated g an : groups_of g an -> negb (bool_decide (an = [])) && forallb is_replicates an = false.
Proof.
  intros H. apply groups_kind in H. destruct an as [|a an]; [done|]. apply Forall_cons in H as [H _]. cbn [forallb].
  unfold is_replicates at 1. destruct H as [->| ->]; by rewrite andb_false_r.
Qed.
Lemma names_replicated n an : names_of Replicates n an -> negb (bool_decide (an = [])) && forallb is_replicates an = true /\ existsb is_extends an = false.
Proof.
  intros H. apply names_kind in H as [H1 H2]. rewrite bool_decide_eq_false_2 by done. cbn [negb andb]. split.
  - clear H1. induction H2 as [|a an Ha _ IH]; [done|]. cbn [forallb]. unfold is_replicates at 1. by rewrite Ha.
  - clear H1. induction H2 as [|a an Ha _ IH]; [done|]. cbn [existsb]. unfold is_extends at 1. by rewrite Ha.
Qed.
Lemma const_no_extends td an : (td_mut td = Const -> Forall (fun a => an_kind a = Implements) an) ->
  existsb is_extends an && is_const (td_mut td) = false.
Proof.
  intros H. destruct (td_mut td) eqn:E; cbn [is_const]; rewrite ?andb_false_r; try done. specialize (H eq_refl). rewrite andb_true_r.
  induction H as [|a an Ha _ IH]; [done|]. cbn [existsb]. unfold is_extends at 1. by rewrite Ha.
Qed.
Lemma type_known t td : type_of t td -> match td_mut td with MUnknown => true | _ => false end = false.
Proof.
  intros [p ns a xs m v _ _ Hm]. cbn [td_mut]. destruct Hm as [|x v Hx Hv]; [done|]. unfold mutabilities in Hv.
  rewrite !elem_of_cons, elem_of_nil in Hv. destruct_or!; try done; by injection Hv as _ ->.
Qed.
(** The words in front of [object]. *)
Lemma object_lead v vv f fv fd l lv w z :
  opt_word VISIBILITY visibilities Private v vv -> opt_word LANGUAGE_FEATURE_STATE features fd f fv ->
  opt_word MEMORY_LAYOUT layouts Virtual l lv -> sym RESERVED_WORD ($"object") w ->
  is_object (v ++ f ++ l ++ w :: z) = Ok true /\
  parse_word VISIBILITY to_visibility Private (v ++ f ++ l ++ w :: z) = Ok (vv, f ++ l ++ w :: z) /\
  parse_word LANGUAGE_FEATURE_STATE to_feature fd (f ++ l ++ w :: z) = Ok (fv, l ++ w :: z) /\
  parse_word MEMORY_LAYOUT to_layout Virtual (l ++ w :: z) = Ok (lv, w :: z).
Proof.
  intros Hv Hf Hl Hw.
  assert (S1 : starts [RESERVED_WORD] (w :: z)) by (apply starts_cons; destruct Hw as [-> _]; left).
  pose proof (starts_opt _ _ _ _ _ _ _ Hl S1) as S2. pose proof (starts_opt _ _ _ _ _ _ _ Hf S2) as S3.
  split_and!.
  - unfold is_object. rewrite (skip_opt _ _ _ _ _ _ _ Hv S3) by notin. cbn [rbind].
    rewrite (skip_opt _ _ _ _ _ _ _ Hf S2) by notin. cbn [rbind]. rewrite (skip_opt _ _ _ _ _ _ _ Hl S1) by notin. cbn [rbind].
    by apply at_word_yes.
  - by apply (parse_word_ok _ _ to_visibility _ _ _ _ _ Hv visibility_meaning S3); notin.
  - by apply (parse_word_ok _ _ to_feature _ _ _ _ _ Hf feature_meaning S2); notin.
  - by apply (parse_word_ok _ _ to_layout _ _ _ _ _ Hl layout_meaning S1); notin.
Qed.
(** The words in front of [interface], [namespace] and [enum]. *)
Lemma word_lead v vv f fv fd w s z :
  opt_word VISIBILITY visibilities Private v vv -> opt_word LANGUAGE_FEATURE_STATE features fd f fv -> sym RESERVED_WORD s w ->
  parse_word VISIBILITY to_visibility Private (v ++ f ++ w :: z) = Ok (vv, f ++ w :: z) /\
  parse_word LANGUAGE_FEATURE_STATE to_feature fd (f ++ w :: z) = Ok (fv, w :: z) /\
  (let! a := skip VISIBILITY (v ++ f ++ w :: z) in let! b := skip LANGUAGE_FEATURE_STATE a in at_word s b) = Ok true.
Proof.
  intros Hv Hf Hw.
  assert (S1 : starts [RESERVED_WORD] (w :: z)) by (apply starts_cons; destruct Hw as [-> _]; left).
  pose proof (starts_opt _ _ _ _ _ _ _ Hf S1) as S2.
  split_and!.
  - by apply (parse_word_ok _ _ to_visibility _ _ _ _ _ Hv visibility_meaning S2); notin.
  - by apply (parse_word_ok _ _ to_feature _ _ _ _ _ Hf feature_meaning S1); notin.
  - rewrite (skip_opt _ _ _ _ _ _ _ Hv S2) by notin. cbn [rbind].
    rewrite (skip_opt _ _ _ _ _ _ _ Hf S1) by notin. cbn [rbind]. by apply at_word_yes.
Qed.
Lemma not_interface c : (forall x, c <> InInterface x) -> iface_of c = false.
Proof. destruct c; [done..|]. intros H. by destruct (H const). Qed.
Lemma after_type g an o z : groups_of g an -> k_type o ∈ [BRACKET_CURLY_OPEN; SEMICOLON] -> starts [RESERVED_WORD; BRACKET_CURLY_OPEN; SEMICOLON] (g ++ o :: z).
Proof.
  intros Hg Ho. destruct Hg as [|w k a l b l' Hw _ _ _]; cbn [app]; apply starts_cons.
  - by right.
  - rewrite Hw. left.
Qed.

Definition reads_one (c : ctx) (a : list token) (d : decl) : Prop :=
  Forall marked a -> forall fuel r, (length a <= fuel)%nat -> exists last,
    create_one (generate fuel) (place_of c) (iface_of c) (a ++ r) = Ok (d, iface_of c, last :: r).
Definition reads_all (c : ctx) (a : list token) (ds : list decl) : Prop :=
  Forall marked a -> forall fuel e, (length a < fuel)%nat -> e = [] \/ starts [ENDOFFILE] e ->
    generate fuel (place_of c) (iface_of c) (a ++ e) = Ok (ds, iface_of c).

Lemma reads_import c w p ns s : sym RESERVED_WORD ($"import") w -> path p ns -> hd_error ns <> Some ($"extension") -> sym SEMICOLON ($";") s ->
  reads_one c (w :: p ++ [s]) (DImport false (dotted ns)).
Proof.
  intros Hw Hp Hns Hs Hm fuel r _. cbn [app]. rewrite <- app_assoc. cbn [app]. unfold create_one.
  assert (Hno : forall x, $"import" <> x -> no_word x (w :: p ++ s :: r)).
  { intros x Hx. apply (no_word_of [] w (p ++ [s]) ($"import") x); [constructor|done..]. }
  rewrite object_no, enum_no, interface_no by (by apply Hno). cbn [rbind].
  destruct (path_head _ _ (s :: r) Hp) as (i & y & E & Hi).
  assert (marked w /\ marked i) as [Hmw Hmi].
  { apply Forall_cons in Hm as [H1 H2]. split; [done|]. apply Forall_app in H2 as [H2 _]. destruct Hp; cbn [app] in E; injection E as <- _;
      by apply Forall_cons in H2 as [? _]. }
  assert (is_import (w :: p ++ s :: r) = Ok true) as ->.
  { rewrite E. by apply (check_yes_one w). }
  cbn [rbind]. unfold create_import. cbn [expect_at]. replace (is w RESERVED_WORD) with true by (symmetry; apply is_spec; by destruct Hw).
  cbn [rbind next]. rewrite E. replace (str_eqb (k_text i) ($"extension")) with false.
  2: { symmetry. apply bool_decide_eq_false. intros E2. apply Hns. destruct Hp; cbn [app] in E; injection E as <- _; by rewrite E2. }
  rewrite <- E. rewrite (no_run_loop_ok _ _ _ [SEMICOLON] Hp); [|apply starts_cons; destruct Hs as [-> _]; left|notin].
  cbn [rbind snd fst expect_at]. replace (is s SEMICOLON) with true by (symmetry; apply is_spec; by destruct Hs).
  exists s. done.
Qed.
Lemma reads_extension c w e p ns s : sym RESERVED_WORD ($"import") w -> sym IDENTIFIER ($"extension") e -> path p ns -> sym SEMICOLON ($";") s ->
  reads_one c (w :: e :: p ++ [s]) (DImport true (dotted ns)).
Proof.
  intros Hw He Hp Hs Hm fuel r _. cbn [app]. rewrite <- app_assoc. cbn [app]. unfold create_one.
  assert (Hno : forall x, $"import" <> x -> no_word x (w :: e :: p ++ s :: r)).
  { intros x Hx. apply (no_word_of [] w (e :: p ++ [s]) ($"import") x); [constructor|done..]. }
  rewrite object_no, enum_no, interface_no by (by apply Hno). cbn [rbind].
  apply Forall_cons in Hm as [Hmw Hm]. apply Forall_cons in Hm as [Hme _].
  assert (is_import (w :: e :: p ++ s :: r) = Ok true) as ->.
  { apply (check_yes_one w); try done. destruct He as [He1 He2]. split; [done|]. rewrite He2. split; [done|]. notin. }
  cbn [rbind]. unfold create_import. cbn [expect_at]. replace (is w RESERVED_WORD) with true by (symmetry; apply is_spec; by destruct Hw).
  cbn [rbind next]. replace (str_eqb (k_text e) ($"extension")) with true.
  2: { symmetry. apply bool_decide_eq_true. by destruct He. }
  rewrite (no_run_loop_ok _ _ _ [SEMICOLON] Hp); [|apply starts_cons; destruct Hs as [-> _]; left|notin].
  cbn [rbind snd fst expect_at]. replace (is s SEMICOLON) with true by (symmetry; apply is_spec; by destruct Hs).
  exists s. done.
Qed.
Lemma reads_namespace v vv f fv w p ns o b ds cl :
  opt_word VISIBILITY visibilities Private v vv -> opt_word LANGUAGE_FEATURE_STATE features Stable f fv ->
  sym RESERVED_WORD ($"namespace") w -> path p ns -> sym BRACKET_CURLY_OPEN ($"{") o -> sym BRACKET_CURLY_CLOSE ($"}") cl ->
  nest b -> reads_all InSpace b ds -> reads_one InSpace (v ++ f ++ w :: p ++ o :: b ++ [cl]) (DNamespace vv fv ns ds).
Proof.
  intros Hv Hf Hw Hp Ho Hcl Hb IH Hm fuel r Hlen.
  assert (Hld : leads (v ++ f)) by (apply leads_app; eapply opt_leads; [done|inl|done|inl]).
  assert (Hno : forall x, $"namespace" <> x -> no_word x (v ++ f ++ w :: p ++ o :: b ++ cl :: r)).
  { intros x Hx. rewrite app_assoc in Hm |- *. by apply (no_word_of (v ++ f) w _ ($"namespace") x Hld Hm). }
  rewrite <- !app_assoc. cbn [app]. rewrite <- !app_assoc. cbn [app]. rewrite <- app_assoc. cbn [app]. unfold create_one.
  rewrite object_no, enum_no, interface_no, import_no by (by apply Hno).
  cbn [rbind]. destruct (word_lead _ _ _ _ _ w ($"namespace") (p ++ o :: b ++ cl :: r) Hv Hf Hw) as (E1 & E2 & E3).
  unfold is_namespace. rewrite E3. cbn [rbind place_of]. rewrite E1. cbn [rbind snd fst]. rewrite E2. cbn [rbind snd fst next].
  rewrite (names_loop_ok _ _ o _ Hp) by (by destruct Ho). cbn [rbind snd fst].
  rewrite (collect_ok _ _ _ _ Ho Hcl Hb). cbn [rbind snd fst].
  rewrite !Forall_app, !Forall_cons, !Forall_app, !Forall_cons, !Forall_app in Hm.
  rewrite !app_length in Hlen. cbn in Hlen. rewrite !app_length in Hlen. cbn in Hlen. rewrite !app_length in Hlen.
  pose proof (IH ltac:(tauto) fuel [] ltac:(lia) ltac:(by left)) as E. rewrite app_nil_r in E. cbn [place_of iface_of] in E |- *. rewrite E.
  cbn [rbind snd fst]. by exists cl.
Qed.
Lemma reads_object c v vv f fv l lv w t td g an o b ds cl :
  (forall x, c <> InInterface x) ->
  opt_word VISIBILITY visibilities Private v vv -> opt_word LANGUAGE_FEATURE_STATE features Stable f fv ->
  opt_word MEMORY_LAYOUT layouts Virtual l lv -> lv = Abstract \/ lv = Final \/ lv = Virtual ->
  sym RESERVED_WORD ($"object") w -> type_of t td -> groups_of g an ->
  (td_mut td = Const -> Forall (fun a => an_kind a = Implements) an) ->
  sym BRACKET_CURLY_OPEN ($"{") o -> sym BRACKET_CURLY_CLOSE ($"}") cl ->
  nest b -> reads_all (InObject (is_const (td_mut td))) b ds ->
  reads_one c (v ++ f ++ l ++ w :: t ++ g ++ o :: b ++ [cl]) (DObject vv fv lv td an (Some ds)).
Proof.
  intros Hc Hv Hf Hl Hlv Hw Ht Hg Hconst Ho Hcl Hb IH Hm fuel r Hlen.
  rewrite <- !app_assoc. cbn [app]. rewrite <- !app_assoc. cbn [app]. rewrite <- !app_assoc. cbn [app]. unfold create_one.
  destruct (object_lead _ _ _ _ _ _ _ w (t ++ g ++ o :: b ++ cl :: r) Hv Hf Hl Hw) as (E1 & E2 & E3 & E4).
  rewrite E1. cbn [rbind]. rewrite E2. cbn [rbind snd fst]. rewrite E3. cbn [rbind snd fst]. rewrite E4. cbn [rbind snd fst next].
  pose proof (after_type _ _ o (b ++ cl :: r) Hg ltac:(destruct Ho as [-> _]; left)) as S1.
  assert (H1 : heads after_groups (o :: b ++ cl :: r)) by (apply (heads_cons BRACKET_CURLY_OPEN ($"{")); [done|left]).
  rewrite (parse_type_ok _ _ _ _ Ht S1) by notin. cbn [rbind snd fst].
  rewrite (collect_groups_ok _ _ _ Hg H1). cbn [rbind snd fst].
  rewrite (groups_not_replicated _ _ Hg). replace (is o SEMICOLON) with false by (symmetry; apply is_not; destruct Ho as [-> _]; done).
  cbn [negb andb]. rewrite (collect_ok _ _ _ _ Ho Hcl Hb). cbn [rbind snd fst].
  rewrite (const_no_extends _ _ Hconst), (type_known _ _ Ht).
  rewrite !Forall_app, !Forall_cons, !Forall_app, !Forall_cons, !Forall_app in Hm.
  rewrite !app_length in Hlen. cbn in Hlen. rewrite !app_length in Hlen. cbn in Hlen. rewrite !app_length in Hlen.
  pose proof (IH ltac:(tauto) fuel [] ltac:(lia) ltac:(by left)) as E. rewrite app_nil_r in E. cbn [place_of iface_of] in E.
  rewrite (not_interface _ Hc), E. cbn [rbind snd fst]. exists cl. by destruct Hlv as [->|[->| ->]].
Qed.
Lemma reads_forward c v vv f fv l lv w t td g an s :
  (forall x, c <> InInterface x) ->
  opt_word VISIBILITY visibilities Private v vv -> opt_word LANGUAGE_FEATURE_STATE features Stable f fv ->
  opt_word MEMORY_LAYOUT layouts Virtual l lv -> lv = Abstract \/ lv = Final \/ lv = Virtual ->
  sym RESERVED_WORD ($"object") w -> type_of t td -> groups_of g an ->
  (td_mut td = Const -> Forall (fun a => an_kind a = Implements) an) -> sym SEMICOLON ($";") s ->
  reads_one c (v ++ f ++ l ++ w :: t ++ g ++ [s]) (DObject vv fv lv td an None).
Proof.
  intros Hc Hv Hf Hl Hlv Hw Ht Hg Hconst Hs Hm fuel r Hlen.
  rewrite <- !app_assoc. cbn [app]. rewrite <- !app_assoc. cbn [app]. unfold create_one.
  destruct (object_lead _ _ _ _ _ _ _ w (t ++ g ++ s :: r) Hv Hf Hl Hw) as (E1 & E2 & E3 & E4).
  rewrite E1. cbn [rbind]. rewrite E2. cbn [rbind snd fst]. rewrite E3. cbn [rbind snd fst]. rewrite E4. cbn [rbind snd fst next].
  pose proof (after_type _ _ s r Hg ltac:(destruct Hs as [-> _]; right; left)) as S1.
  assert (H1 : heads after_groups (s :: r)) by (apply (heads_cons SEMICOLON ($";")); [done|right; left]).
  rewrite (parse_type_ok _ _ _ _ Ht S1) by notin. cbn [rbind snd fst].
  rewrite (collect_groups_ok _ _ _ Hg H1). cbn [rbind snd fst].
  replace (is s SEMICOLON) with true by (symmetry; apply is_spec; by destruct Hs). cbn [negb]. rewrite andb_false_r.
  rewrite (const_no_extends _ _ Hconst), (type_known _ _ Ht). exists s. by destruct Hlv as [->|[->| ->]].
Qed.
Lemma reads_replica c v vv f fv l lv w t td x n an s :
  (forall x, c <> InInterface x) ->
  opt_word VISIBILITY visibilities Private v vv -> opt_word LANGUAGE_FEATURE_STATE features Stable f fv ->
  opt_word MEMORY_LAYOUT layouts Virtual l lv -> lv = Abstract \/ lv = Final \/ lv = Virtual ->
  sym RESERVED_WORD ($"object") w -> type_of t td -> sym RESERVED_WORD ($"replicates") x -> names_of Replicates n an ->
  sym SEMICOLON ($";") s ->
  reads_one c (v ++ f ++ l ++ w :: t ++ x :: n ++ [s]) (DObject vv fv lv td an None).
Proof.
  intros Hc Hv Hf Hl Hlv Hw Ht Hx Hn Hs Hm fuel r Hlen.
  rewrite <- !app_assoc. cbn [app]. rewrite <- !app_assoc. cbn [app]. rewrite <- !app_assoc. cbn [app]. unfold create_one.
  destruct (object_lead _ _ _ _ _ _ _ w (t ++ x :: n ++ s :: r) Hv Hf Hl Hw) as (E1 & E2 & E3 & E4).
  rewrite E1. cbn [rbind]. rewrite E2. cbn [rbind snd fst]. rewrite E3. cbn [rbind snd fst]. rewrite E4. cbn [rbind snd fst next].
  assert (H1 : heads after_groups (s :: r)) by (apply (heads_cons SEMICOLON ($";")); [done|right; left]).
  rewrite (parse_type_ok _ _ [RESERVED_WORD] _ Ht); [|apply starts_cons; destruct Hx as [-> _]; left|notin..]. cbn [rbind snd fst].
  rewrite (collect_replica_ok _ _ _ _ Hx Hn H1). cbn [rbind snd fst].
  destruct (names_replicated _ _ Hn) as [-> ->]. cbn [negb andb]. rewrite (type_known _ _ Ht). exists s. by destruct Hlv as [->|[->| ->]].
Qed.
Lemma reads_interface c v vv f fv w t td g an o b ds cl :
  (forall x, c <> InInterface x) ->
  opt_word VISIBILITY visibilities Private v vv -> opt_word LANGUAGE_FEATURE_STATE features Unstable f fv ->
  sym RESERVED_WORD ($"interface") w -> type_of t td -> groups_of g an -> Forall (fun a => an_kind a = Implements) an ->
  sym BRACKET_CURLY_OPEN ($"{") o -> sym BRACKET_CURLY_CLOSE ($"}") cl ->
  nest b -> reads_all (InInterface (is_const (td_mut td))) b ds ->
  reads_one c (v ++ f ++ w :: t ++ g ++ o :: b ++ [cl]) (DInterface vv fv td an ds).
Proof.
  intros Hc Hv Hf Hw Ht Hg Himp Ho Hcl Hb IH Hm fuel r Hlen.
  assert (Hld : leads (v ++ f)) by (apply leads_app; eapply opt_leads; [done|inl|done|inl]).
  assert (Hno : forall x, $"interface" <> x -> no_word x (v ++ f ++ w :: t ++ g ++ o :: b ++ cl :: r)).
  { intros x Hx. rewrite app_assoc in Hm |- *. by apply (no_word_of (v ++ f) w _ ($"interface") x Hld Hm). }
  rewrite <- !app_assoc. cbn [app]. rewrite <- !app_assoc. cbn [app]. rewrite <- !app_assoc. cbn [app]. unfold create_one.
  rewrite object_no, enum_no by (by apply Hno).
  cbn [rbind]. destruct (word_lead _ _ _ _ _ w ($"interface") (t ++ g ++ o :: b ++ cl :: r) Hv Hf Hw) as (E1 & E2 & E3).
  unfold is_interface. rewrite E3. cbn [rbind]. rewrite E1. cbn [rbind snd fst]. rewrite E2. cbn [rbind snd fst next].
  pose proof (after_type _ _ o (b ++ cl :: r) Hg ltac:(destruct Ho as [-> _]; left)) as S1.
  assert (H1 : heads after_groups (o :: b ++ cl :: r)) by (apply (heads_cons BRACKET_CURLY_OPEN ($"{")); [done|left]).
  rewrite (parse_type_ok _ _ _ _ Ht S1) by notin. cbn [rbind snd fst]. rewrite (type_known _ _ Ht).
  rewrite (collect_groups_ok _ _ _ Hg H1). cbn [rbind snd fst expect_at].
  replace (is o BRACKET_CURLY_OPEN) with true by (symmetry; apply is_spec; by destruct Ho). cbn [rbind].
  assert (forallb is_implements an = true) as ->.
  { clear - Himp. induction Himp as [|a an Ha _ IH]; [done|]. cbn [forallb]. unfold is_implements at 1. by rewrite Ha. }
  cbn [negb]. rewrite (collect_ok _ _ _ _ Ho Hcl Hb). cbn [rbind snd fst].
  rewrite !Forall_app, !Forall_cons, !Forall_app, !Forall_cons, !Forall_app in Hm.
  rewrite !app_length in Hlen. cbn in Hlen. rewrite !app_length in Hlen. cbn in Hlen. rewrite !app_length in Hlen.
  pose proof (IH ltac:(tauto) fuel [] ltac:(lia) ltac:(by left)) as E. rewrite app_nil_r in E. cbn [place_of iface_of] in E.
  rewrite E. cbn [rbind snd fst]. exists cl. by rewrite (not_interface _ Hc).
Qed.
Lemma reads_enum c v vv f fv w t td o es e s cl :
  opt_word VISIBILITY visibilities Private v vv -> opt_word LANGUAGE_FEATURE_STATE features Stable f fv -> v = [] \/ f = [] ->
  sym RESERVED_WORD ($"enum") w -> type_of t td -> td_args td = [] ->
  sym BRACKET_CURLY_OPEN ($"{") o -> sym BRACKET_CURLY_CLOSE ($"}") cl -> sym SEMICOLON ($";") s ->
  spells es e -> NoDup (map fst es) -> increasing (-1) (numbers (-1) es) -> countable (-1) es ->
  reads_one c (v ++ f ++ w :: t ++ o :: e ++ [s; cl]) (DEnum vv fv td (zip (map fst es) (numbers (-1) es))).
Proof.
  intros Hv Hf Hvf Hw Ht Hargs Ho Hcl Hs Hsp H1 H2 H3 Hm fuel r Hlen.
  assert (Hld : leads (v ++ f)) by (apply leads_app; eapply opt_leads; [done|inl|done|inl]).
  assert (Hno : forall x, $"enum" <> x -> no_word x (v ++ f ++ w :: t ++ o :: e ++ s :: cl :: r)).
  { intros x Hx. rewrite app_assoc in Hm |- *. by apply (no_word_of (v ++ f) w _ ($"enum") x Hld Hm). }
  rewrite <- !app_assoc. cbn [app]. rewrite <- !app_assoc. cbn [app]. rewrite <- !app_assoc. cbn [app]. unfold create_one.
  rewrite object_no by (by apply Hno). cbn [rbind].
  destruct (word_lead _ _ _ _ _ w ($"enum") (t ++ o :: e ++ s :: cl :: r) Hv Hf Hw) as (E1 & E2 & _).
  destruct (type_head _ _ (o :: e ++ s :: cl :: r) Ht) as (i & y & E & Hi & Hit).
  rewrite !Forall_app, !Forall_cons, !Forall_app in Hm. destruct Hm as (Hmv & Hmf & Hmw & Hmt & _).
  assert (Hmi : marked i) by (by apply (proj1 (Forall_forall marked t) Hmt)).
  assert (Hy : check_loop (w :: t ++ o :: e ++ s :: cl :: r) [(RESERVED_WORD, $"enum"); (IDENTIFIER, [])] = Ok true).
  { rewrite E. by apply (check_yes_one w). }
  assert (Hwo : k_opt w = false).
  { destruct (k_opt w) eqn:E0; [|done]. apply Hmw in E0. destruct Hw as [Hw _]. rewrite Hw in E0. exfalso. revert E0. notin. }
  assert (is_enum (v ++ f ++ w :: t ++ o :: e ++ s :: cl :: r) = Ok true) as ->.
  { unfold is_enum. destruct Hv as [|tv vv Htv _].
    - cbn [app]. destruct Hf as [|tf fv Htf _]; cbn [app]; [done|]. rewrite check_skip; [done| |by eexists _, _|done].
      apply Forall_cons in Hmf as [Hmf _]. apply Hmf. rewrite Htf. inl.
    - destruct Hvf as [Hvf|Hvf]; [done|]. subst f. cbn [app]. rewrite check_skip; [done| |by eexists _, _|done].
      apply Forall_cons in Hmv as [Hmv _]. apply Hmv. rewrite Htv. inl. }
  cbn [rbind]. unfold create_enum. rewrite E1. cbn [rbind snd fst]. rewrite E2. cbn [rbind snd fst].
  replace (str_eqb (k_text w) ($"enum")) with true by (symmetry; apply bool_decide_eq_true; by destruct Hw). cbn [negb].
  rewrite (parse_type_ok _ _ [BRACKET_CURLY_OPEN] _ Ht); [|apply starts_cons; destruct Ho as [-> _]; left|notin..].
  cbn [rbind snd fst]. rewrite Hargs.
  replace (o :: e ++ s :: cl :: r) with (o :: (e ++ [s]) ++ cl :: r) by (rewrite <- app_assoc; done).
  rewrite (collect_ok _ _ _ _ Ho Hcl). 2: { apply plain_nested. plain. }
  cbn [rbind snd fst].
  rewrite (proj2 (build_enum_iff (e ++ [s]) (zip (map fst es) (numbers (-1) es)))).
  - cbn [rbind snd fst]. by exists cl.
  - exists es, e, s, []. destruct Hs. split_and!; done.
Qed.
Lemma reads_member_or_method c v vv l lv f fv t td n x d tail r :
  opt_word VISIBILITY visibilities Private v vv -> layout_of c l lv -> opt_word LANGUAGE_FEATURE_STATE features Stable f fv ->
  type_of t td -> ident n ->
  (if is x PARENTHESIS_OPEN
   then create_method (iface_of c) (place_of c) vv lv fv td (k_text n) (x :: tail)
   else create_member (place_of c) vv lv fv td (k_text n) (x :: tail)) = Ok (d, r) ->
  Forall marked (v ++ l ++ f ++ t ++ [n]) -> forall go,
  create_one go (place_of c) (iface_of c) (v ++ l ++ f ++ t ++ n :: x :: tail) = Ok (d, iface_of c, r).
Proof.
  intros Hv Hl Hf Ht Hn Hd Hm go.
  assert (Hld : leads (v ++ l ++ f)).
  { apply leads_app; [eapply opt_leads; [done|inl]|]. apply leads_app; [by eapply layout_opt|]. eapply opt_leads; [done|inl]. }
  destruct (type_head _ _ (n :: x :: tail) Ht) as (i & y & E & Hi & Hit).
  assert (Hno : forall w, no_word w (v ++ l ++ f ++ t ++ n :: x :: tail)).
  { intros w. rewrite E. rewrite app_assoc, app_assoc. rewrite <- (app_assoc v l f). apply (no_word_ident _ _ []); [done| |by destruct Hi].
    rewrite !Forall_app in Hm. rewrite !Forall_app. destruct Hm as (A & B & C & D & _). split_and!; try done. constructor; [|constructor].
    by apply (proj1 (Forall_forall marked t) D). }
  unfold create_one.
  rewrite object_no, enum_no, interface_no, import_no, namespace_no by (by apply Hno). cbn [rbind].
  assert (S1 : starts [IDENTIFIER] (t ++ n :: x :: tail)) by (by apply (starts_type _ td)).
  pose proof (starts_opt _ _ _ _ _ _ _ Hf S1) as S2.
  assert (S3 : starts (MEMORY_LAYOUT :: LANGUAGE_FEATURE_STATE :: [IDENTIFIER]) (l ++ f ++ t ++ n :: x :: tail)).
  { destruct Hl as [|b|b l' v' Hl]; [..|by apply (starts_opt _ _ _ _ _ _ _ Hl)]; (eapply starts_weaken; [exact S2|]; intros z Hz; by right). }
  unfold create_member_or_method.
  rewrite (parse_word_ok _ _ to_visibility _ _ _ _ _ Hv visibility_meaning S3) by notin. cbn [rbind snd fst].
  rewrite (layout_read _ _ _ _ _ Hl S2) by notin. cbn [rbind snd fst].
  rewrite (parse_word_ok _ _ to_feature _ _ _ _ _ Hf feature_meaning S1) by notin. cbn [rbind snd fst].
  rewrite (parse_type_ok _ _ [IDENTIFIER] _ Ht); [|apply starts_cons; destruct Hn as [-> _]; left|notin..]. cbn [rbind snd fst].
  rewrite Hd. done.
Qed.
Lemma reads_member c v vv l lv f fv t td n m mv a av d dv s :
  opt_word VISIBILITY visibilities Private v vv -> layout_of c l lv -> opt_word LANGUAGE_FEATURE_STATE features Stable f fv ->
  type_of t td -> ident n -> opt_word MUTABILITY mutabilities Modify m mv -> opt_word ACCESS_MODE accesses ByValue a av ->
  (ctx_const c = true -> mv = Const) -> default_of (td_name td) d dv -> sym SEMICOLON ($";") s ->
  reads_one c (v ++ l ++ f ++ t ++ n :: m ++ a ++ d ++ [s])
    (DMember vv lv fv td (k_text n) mv av
      (match dv with Some x => x | None => if bool_decide (td_name td = t_string) then DText [] else DInt 0 end)).
Proof.
  intros Hv Hl Hf Ht Hn Hm Ha Hc Hd Hs Hmk fuel r Hlen. rewrite <- !app_assoc. cbn [app]. rewrite <- !app_assoc. cbn [app].
  assert (S1 : starts (MUTABILITY :: ACCESS_MODE :: [ASSIGN; SEMICOLON]) (m ++ a ++ d ++ s :: r)).
  { apply (starts_opt _ _ _ _ _ _ _ Hm), (starts_opt _ _ _ _ _ _ _ Ha).
    apply (heads_starts ((ASSIGN, $"=") :: [(SEMICOLON, $";")])). apply (heads_default _ _ _ _ _ Hd). apply (heads_cons SEMICOLON ($";")); [done|left]. }
  pose proof (member_tail_ok c vv lv fv t td (k_text n) m mv a av d dv s r Ht Hm Ha Hc Hd Hs) as E.
  destruct S1 as (x & tail & Ex & Hx). rewrite Ex in E |- *. exists s.
  apply (reads_member_or_method c v vv l lv f fv t td n x); try done.
  - replace (is x PARENTHESIS_OPEN) with false; [done|]. symmetry. apply is_not. intros E2. rewrite E2 in Hx. revert Hx. notin.
  - rewrite !Forall_app, !Forall_cons in Hmk |- *. rewrite Forall_nil. tauto.
Qed.
Lemma reads_method c v vv l lv f fv t td n po p ps pc m mv x xv b bv :
  opt_word VISIBILITY visibilities Private v vv -> layout_of c l lv -> opt_word LANGUAGE_FEATURE_STATE features Stable f fv ->
  type_of t td -> ident n -> sym PARENTHESIS_OPEN ($"(") po -> sym PARENTHESIS_CLOSE ($")") pc -> params_of p ps ->
  opt_word MUTABILITY mutabilities (if structor c (k_text n) then Modify else Const) m mv -> throwing_of x xv ->
  (ctx_const c = true -> structor c (k_text n) = false -> mv = Const) -> body_of lv fv b bv ->
  reads_one c (v ++ l ++ f ++ t ++ n :: po :: p ++ pc :: m ++ x ++ b) (DMethod vv lv fv td (k_text n) ps mv xv bv).
Proof.
  intros Hv Hl Hf Ht Hn Hpo Hpc Hp Hm Hx Hc Hb Hmk fuel r Hlen. rewrite <- !app_assoc. cbn [app]. rewrite <- !app_assoc. cbn [app]. rewrite <- !app_assoc.
  destruct (method_tail_ok c vv lv fv t td (k_text n) po p ps pc m mv x xv b bv l r Ht Hl Hpo Hpc Hp Hm Hx Hc Hb) as (last & E).
  exists last. apply (reads_member_or_method c v vv l lv f fv t td n po); try done.
  - replace (is po PARENTHESIS_OPEN) with true; [done|]. symmetry. apply is_spec. by destruct Hpo.
  - rewrite !Forall_app, !Forall_cons in Hmk |- *. rewrite Forall_nil. tauto.
Qed.
Lemma declares_first c a d : declares c a d -> exists t y, a = t :: y /\ k_type t <> ENDOFFILE.
Proof.
  assert (Hopt : forall A ty mean (dv : A) x v r, opt_word ty mean dv x v -> ty <> ENDOFFILE ->
     (exists t y, r = t :: y /\ k_type t <> ENDOFFILE) -> exists t y, x ++ r = t :: y /\ k_type t <> ENDOFFILE).
  { intros A ty mean dv x v r [|t v' Ht _] Hty Hr; [done|]. exists t, r. split; [done|]. by rewrite Ht. }
  assert (Hsym : forall s t (y : list token), sym RESERVED_WORD s t -> exists t' y', t :: y = t' :: y' /\ k_type t' <> ENDOFFILE).
  { intros s t y [Ht _]. exists t, y. split; [done|]. by rewrite Ht. }
  assert (Hty : forall t td r, type_of t td -> exists t' y', t ++ r = t' :: y' /\ k_type t' <> ENDOFFILE).
  { intros t td r H. destruct (type_head _ _ r H) as (i & y & E & [Hi _] & _). exists i, y. split; [done|]. by rewrite Hi. }
  assert (Hly : forall c l lv r, layout_of c l lv -> (exists t y, r = t :: y /\ k_type t <> ENDOFFILE) ->
     exists t y, l ++ r = t :: y /\ k_type t <> ENDOFFILE).
  { intros c0 l lv r [|b|b l' v' H] Hr; [done..|]. by apply (Hopt _ _ _ _ _ _ _ H). }
  intros []; repeat (eapply Hopt; [eassumption|discriminate|]); try (eapply Hsym; eassumption);
    (eapply Hly; [eassumption|]; eapply Hopt; [eassumption|discriminate|]; eapply Hty; eassumption).
Qed.
Theorem declares_reads : (forall c a d, declares c a d -> reads_one c a d) /\ (forall c a ds, declare c a ds -> reads_all c a ds).
Proof.
  apply declares_declare_ind.
  - intros. by apply reads_import.
  - intros. by apply reads_extension.
  - intros. apply reads_namespace; try done. by eapply declares_nested.
  - intros. apply reads_object; try done. by eapply declares_nested.
  - intros. by apply reads_forward.
  - intros. by eapply reads_replica.
  - intros. apply reads_interface; try done. by eapply declares_nested.
  - intros. by apply reads_enum.
  - intros. by apply reads_member.
  - intros. by eapply reads_method.
  - intros c _ fuel e Hlen He. destruct fuel as [|fuel]; [cbn in Hlen; lia|]. cbn [app generate].
    destruct He as [->|(t & y & -> & Ht)]; [done|]. replace (is t ENDOFFILE) with true; [done|]. symmetry. apply is_spec.
    rewrite elem_of_list_singleton in Ht. done.
  - intros c a d b ds Ha IHa Hb IHb Hm fuel e Hlen He. apply Forall_app in Hm as [Hma Hmb].
    destruct fuel as [|fuel]; [cbn in Hlen; lia|]. rewrite app_length in Hlen.
    destruct (declares_first _ _ _ Ha) as (t & y & E & Ht).
    rewrite <- app_assoc. cbn [generate]. rewrite E. cbn [app]. replace (is t ENDOFFILE) with false by (symmetry; by apply is_not).
    change (t :: y ++ b ++ e) with ((t :: y) ++ b ++ e). rewrite <- E.
    destruct (IHa Hma fuel (b ++ e) ltac:(lia)) as (last & ->). cbn [rbind snd fst next].
    assert (length a <> 0)%nat by (rewrite E; done).
    rewrite (IHb Hmb fuel e ltac:(lia) He). done.
Qed.
