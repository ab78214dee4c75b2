(** The reader of declarations accepts the grammar: parameters, ancestors, kinds of declarations. *)
From Verif Require Import Base Base_Proofs Text_Model TypeTable Tok_Model Parse_Model Parse_Spec Parse_Brackets Enum_Model Enum_Spec
  Enum_Proofs Decl_Model Decl_Spec Decl_Proofs.

Ltac notin := first
  [ apply (bool_decide_unpack _); vm_compute; exact I
  | match goal with |- ?x ∈ ?l -> False => change (x ∉ l) | _ => idtac end;
    rewrite ?not_elem_of_cons; repeat split; try discriminate; try (apply not_elem_of_nil) ].
Definition ends : list (ttype * str) := [(COMMA, $","); (PARENTHESIS_CLOSE, $")")].
Lemma heads_weaken L L' ts : heads L ts -> L ⊆ L' -> heads L' ts.
Proof. intros (t & r & -> & H) HL. exists t, r. split; [done|]. by apply HL. Qed.
Lemma heads_default ty d dv L r : default_of ty d dv -> heads L r -> heads ((ASSIGN, $"=") :: L) (d ++ r).
Proof.
  intros [|e v x He Hv] H; cbn [app].
  - apply (heads_weaken L); [done|]. intros y Hy. by right.
  - apply (heads_cons ASSIGN ($"=")); [done|left].
Qed.
(** The default value behind a parameter or a member. *)
Lemma default_ok ty d dv r v x e : default_of ty d dv -> d = e :: v -> dv = Some x ->
  exists last, parse_value (v ++ r) ty = Ok (x, last :: r) /\ is e ASSIGN = true.
Proof.
  intros [|e' v' x' [He _] Hv] E1 E2; [done|]. injection E1 as -> ->. injection E2 as ->.
  destruct (parse_value_ok _ _ _ r Hv) as (l & H). exists l. split; [done|]. by apply is_spec.
Qed.
Lemma parse_param_ok a p r : param_of a p -> heads ends r -> parse_param (a ++ r) = Ok (p, r).
Proof.
  intros [tt td n m mv ac av d dv Ht [Hn [Hn2 _]] Hm Ha Hd Href|tt td ac av Ht Ha] Hr.
  - rewrite <- !app_assoc. cbn [app]. rewrite <- !app_assoc.
    assert (H1 : heads ((ASSIGN, $"=") :: ends) (d ++ r)) by (by apply (heads_default _ _ _ _ _ Hd)).
    assert (H2 : starts (ACCESS_MODE :: [ASSIGN; COMMA; PARENTHESIS_CLOSE]) (ac ++ d ++ r)).
    { apply (starts_opt _ _ _ _ _ _ _ Ha). by apply (heads_starts _ _ H1). }
    unfold parse_param. rewrite (parse_type_ok _ _ [IDENTIFIER] _ Ht); [|apply starts_cons; rewrite Hn; left|notin..].
    cbn [rbind snd fst]. replace (is n IDENTIFIER) with true by (symmetry; by apply is_spec). cbn [rbind snd fst].
    rewrite (parse_word_ok _ _ to_mutability _ _ _ _ _ Hm mutability_meaning H2) by notin. cbn [rbind snd fst].
    rewrite (parse_access_ok _ _ _ _ _ Ha H1) by notin. cbn [rbind snd fst].
    destruct Hd as [|e v x He Hv].
    + destruct Hr as (h & r' & -> & Hh). cbn [app].
      replace (is h ASSIGN) with false.
      2: { symmetry. apply is_not. intros E. rewrite E in Hh. revert Hh. unfold ends. notin. }
      cbn [rbind snd fst]. done.
    + cbn [app]. replace (is e ASSIGN) with true by (symmetry; apply is_spec; by destruct He).
      rewrite bool_decide_eq_false_2 by done. destruct (parse_value_ok _ _ _ r Hv) as (last & ->).
      cbn [rbind snd fst next]. destruct av; try done. exfalso. by apply Href.
  - rewrite <- app_assoc.
    assert (H2 : starts (ACCESS_MODE :: [COMMA; PARENTHESIS_CLOSE]) (ac ++ r)).
    { apply (starts_opt _ _ _ _ _ _ _ Ha). by apply (heads_starts _ _ Hr). }
    unfold parse_param. rewrite (parse_type_ok _ _ _ _ Ht H2) by notin. cbn [rbind snd fst].
    destruct H2 as (h & r' & Eh & Hh). rewrite Eh at 1. replace (is h IDENTIFIER) with false.
    2: { symmetry. apply is_not. intros E. rewrite E in Hh. revert Hh. notin. }
    cbn [rbind snd fst]. rewrite <- Eh. assert (H2 : starts (ACCESS_MODE :: [COMMA; PARENTHESIS_CLOSE]) (ac ++ r)).
    { rewrite Eh. by apply starts_cons. }
    pose proof (parse_word_ok MUTABILITY mutabilities to_mutability Modify [] Modify _ _
      (word_absent _ _ _) mutability_meaning H2 ltac:(notin)) as E. cbn [app] in E. rewrite E. clear E. cbn [rbind snd fst].
    rewrite (parse_access_ok _ _ _ _ _ Ha Hr) by notin. cbn [rbind snd fst].
    destruct Hr as (h' & r2 & -> & Hh'). replace (is h' ASSIGN) with false; [done|]. symmetry. apply is_not. intros E.
    rewrite E in Hh'. revert Hh'. unfold ends. notin.
Qed.
Lemma param_starts a p r : param_of a p -> starts [IDENTIFIER] (a ++ r).
Proof. intros [tt td n m mv ac av d dv Ht _ _ _ _ _|tt td ac av Ht _]; rewrite <- app_assoc; by apply (starts_type _ td). Qed.
Lemma params_loop_ok a ps r pc : some_params a ps -> sym PARENTHESIS_CLOSE ($")") pc ->
  forall fuel, (length (a ++ pc :: r) <= fuel)%nat -> params_loop fuel (a ++ pc :: r) = Ok (ps, pc :: r).
Proof.
  intros H Hpc.
  assert (Hend : forall r, heads ends (pc :: r)) by (intros; apply (heads_cons PARENTHESIS_CLOSE ($")")); [done|right; left]).
  assert (Hno : forall a p z, param_of a p -> exists t y, a ++ z = t :: y /\ is t PARENTHESIS_CLOSE = false).
  { intros a0 p0 z Hp. destruct (param_starts _ _ z Hp) as (t & y & E & Ht). exists t, y. split; [done|]. apply is_not. intros E2.
    rewrite E2 in Ht. revert Ht. notin. }
  induction H as [a p Hp|a p c b ps Hp Hc Hb IH]; intros fuel Hf.
  - destruct fuel as [|fuel]; [rewrite app_length in Hf; cbn in Hf; lia|].
    destruct (Hno _ _ (pc :: r) Hp) as (t & y & E & Ht).
    cbn [params_loop]. rewrite E, Ht, <- E. rewrite (parse_param_ok _ _ _ Hp (Hend r)). cbn [rbind snd fst].
    replace (is pc PARENTHESIS_CLOSE) with true by (symmetry; apply is_spec; by destruct Hpc). done.
  - rewrite <- app_assoc in Hf |- *. cbn [app] in *.
    destruct (Hno _ _ (c :: b ++ pc :: r) Hp) as (t & y & E & Ht).
    destruct fuel as [|fuel]; [rewrite E in Hf; cbn in Hf; lia|].
    cbn [params_loop]. rewrite E, Ht, <- E. rewrite (parse_param_ok _ _ _ Hp); [|apply (heads_cons COMMA ($",")); [done|left]].
    cbn [rbind snd fst].
    replace (is c PARENTHESIS_CLOSE) with false by (symmetry; apply is_not; destruct Hc as [-> _]; done).
    rewrite IH; [done|]. rewrite app_length in Hf. cbn in Hf. lia.
Qed.
Lemma parse_params_ok a ps r po pc : params_of a ps -> sym PARENTHESIS_OPEN ($"(") po -> sym PARENTHESIS_CLOSE ($")") pc ->
  parse_params (po :: a ++ pc :: r) = Ok (ps, pc :: r).
Proof.
  intros Ha [Hpo _] Hpc. unfold parse_params. cbn [expect_at]. replace (is po PARENTHESIS_OPEN) with true by (symmetry; by apply is_spec).
  cbn [rbind next]. destruct Ha as [|a ps Hs].
  - cbn [app params_loop]. replace (is pc PARENTHESIS_CLOSE) with true by (symmetry; apply is_spec; by destruct Hpc). done.
  - apply params_loop_ok; [done..|lia].
Qed.

(** ** Ancestors *)
Lemma ident_no_relation t : ident t -> relation_word (k_text t) = None.
Proof.
  intros (_ & _ & H). rewrite !not_elem_of_cons in H. destruct H as (H1 & H2 & H3 & _). unfold relation_word, str_eqb.
  by rewrite !bool_decide_eq_false_2.
Qed.
Lemma path_head p ns r : path p ns -> exists t y, p ++ r = t :: y /\ ident t.
Proof. intros [t Ht|t d ts ns' Ht _ _]; cbn [app]; eauto. Qed.
Definition after_names : list ttype := [RESERVED_WORD; BRACKET_CURLY_OPEN; SEMICOLON].
Lemma ancestor_step p ns a xs L r go k x : path p ns -> type_args a xs -> starts L r -> COMPARE_LESS ∉ L -> OPERATOR_SCOPE ∉ L ->
  go r = Ok x -> ancestor_of go k (p ++ a ++ r) = Ok (Ancestor k (dotted ns) xs :: fst x, snd x).
Proof.
  intros Hp Ha Hr H1 H2 Hx. unfold ancestor_of. destruct (path_head _ _ (a ++ r) Hp) as (t & y & E & [Ht _]). rewrite E.
  replace (is t IDENTIFIER) with true by (symmetry; by apply is_spec). rewrite <- E.
  rewrite (identify_ok _ _ (COMPARE_LESS :: L) _ Hp); [|by apply (starts_args _ _ _ _ Ha)|notin; done]. cbn [rbind snd fst].
  rewrite (collect_design_ok _ _ _ _ Ha Hr H1). cbn [rbind snd fst]. by rewrite Hx.
Qed.
Lemma names_ok k b l : names_of k b l -> forall repl r x, starts after_names r ->
  (forall n, (length r < n)%nat -> inherit_loop n repl k r = Ok x) ->
  forall n, (length (b ++ r) <= n)%nat -> ancestor_of (inherit_loop n repl k) k (b ++ r) = Ok (l ++ fst x, snd x).
Proof.
  induction 1 as [p ns a xs Hp Ha|p ns a xs c b l Hp Ha [Hc Hs] Hb IH]; intros repl r x Hr Hx n Hn.
  - rewrite <- app_assoc. rewrite (ancestor_step _ _ _ _ after_names _ _ _ x Hp Ha Hr); [done|notin..|].
    apply Hx. rewrite !app_length in Hn. destruct (path_head _ _ [] Hp) as (t & y & E & _). rewrite app_nil_r in E. subst p. cbn in Hn. lia.
  - rewrite <- !app_assoc in Hn |- *. cbn [app] in *.
    rewrite (ancestor_step _ _ _ _ [COMMA] _ _ _ (l ++ fst x, snd x) Hp Ha); [done|apply starts_cons; rewrite Hc; left|notin..|].
    destruct n as [|n]. { destruct (path_head _ _ [] Hp) as (t & y & E & _). rewrite app_nil_r in E. subst p. cbn in Hn. lia. }
    cbn [inherit_loop]. rewrite Hs. change (relation_word ($",")) with (@None relation).
    replace (is c COMMA) with true by (symmetry; by apply is_spec).
    destruct n as [|n]. { exfalso. rewrite !app_length in Hn. cbn in Hn. destruct (path_head _ _ [] Hp) as (t & y & E & _).
      rewrite app_nil_r in E. subst p. cbn in Hn. rewrite app_length in Hn.
      assert (b <> []) by (destruct Hb as [? ? ? ? Hq _|? ? ? ? ? ? ? Hq _ _ _]; destruct Hq; done). destruct b; [done|cbn in Hn; lia]. }
    cbn [inherit_loop].
    assert (exists t y, b ++ r = t :: y /\ ident t) as (t & y & E & Ht).
    { destruct Hb as [p' ns' a' xs' Hq _|p' ns' a' xs' c' b' l' Hq _ _ _]; rewrite <- !app_assoc; by apply (path_head _ ns'). }
    rewrite E. rewrite (ident_no_relation _ Ht).
    replace (is t COMMA) with false by (symmetry; apply is_not; destruct Ht as [-> _]; done).
    rewrite <- E. apply IH; [done..|]. rewrite !app_length in Hn. cbn in Hn. destruct (path_head _ _ [] Hp) as (t' & y' & E' & _).
    rewrite app_nil_r in E'. subst p. cbn in Hn. rewrite app_length in *. lia.
Qed.
Lemma relation_meaning s k : (s, k) ∈ relations -> relation_word s = Some k /\ (k = Extends \/ k = Implements).
Proof. unfold relations. rewrite !elem_of_cons, elem_of_nil. intros H. destruct_or!; try done; injection H as -> ->; auto. Qed.
Definition after_groups : list (ttype * str) := [(BRACKET_CURLY_OPEN, $"{"); (SEMICOLON, $";")].
Lemma groups_stop k repl r : heads after_groups r -> forall n, (length r < n)%nat -> inherit_loop n repl k r = Ok ([], r).
Proof.
  intros (t & y & -> & H) n Hn. destruct n as [|n]; [lia|]. cbn [inherit_loop].
  assert (relation_word (k_text t) = None /\ is t COMMA = false /\ is t IDENTIFIER = false) as (E1 & E2 & E3).
  { rewrite !is_not. unfold after_groups in H. rewrite !elem_of_cons, elem_of_nil in H.
    destruct_or!; try done; injection H as Ht Hs; rewrite Ht, Hs; done. }
  rewrite E1, E2. unfold ancestor_of. by rewrite E3.
Qed.
Lemma groups_ok g l : groups_of g l -> forall r, heads after_groups r ->
  forall n, (length (g ++ r) < n)%nat -> forall k, inherit_loop n false k (g ++ r) = Ok (l, r).
Proof.
  induction 1 as [|w k a l b l' Hw Hk Hn Hg IH]; intros r Hr n Hlen k0; [by apply groups_stop|].
  cbn [app] in *. rewrite <- app_assoc in *. destruct n as [|n]; [lia|]. cbn [inherit_loop].
  destruct (relation_meaning _ _ Hk) as [-> Hk2].
  assert (match k with Replicates => true | _ => false end = false) as -> by (by destruct Hk2 as [->| ->]).
  assert (Hs : starts after_names (b ++ r)).
  { destruct Hg as [|w' k' a' l1 b' l2 Hw' _ _ _].
    - cbn [app]. apply (starts_weaken _ _ _ (heads_starts _ _ Hr)). unfold after_groups, after_names. cbn [map fst]. intros x. rewrite !elem_of_cons. tauto.
    - cbn [app]. apply starts_cons. rewrite Hw'. left. }
  rewrite (names_ok _ _ _ Hn false (b ++ r) (l', r) Hs); [done| |].
  - intros m Hm. by apply IH.
  - cbn in Hlen. lia.
Qed.
Lemma collect_groups_ok g l r : groups_of g l -> heads after_groups r -> collect_inheritance (g ++ r) = Ok (l, r).
Proof.
  intros Hg Hr. pose proof Hg as Hall. destruct Hg as [|w k a l b l' Hw Hk Hn Hg].
  - destruct Hr as (t & y & -> & H). cbn [app collect_inheritance]. replace (is t RESERVED_WORD) with false; [done|].
    symmetry. apply is_not. intros E2. rewrite E2 in H. revert H. unfold after_groups. notin.
  - unfold collect_inheritance. cbn [app]. replace (is w RESERVED_WORD) with true by (symmetry; by apply is_spec).
    apply (groups_ok _ _ Hall r Hr). cbn. lia.
Qed.
Lemma collect_replica_ok w n l r : sym RESERVED_WORD ($"replicates") w -> names_of Replicates n l -> heads after_groups r ->
  collect_inheritance (w :: n ++ r) = Ok (l, r).
Proof.
  intros [Hw Hs] Hn Hr. unfold collect_inheritance. replace (is w RESERVED_WORD) with true by (symmetry; by apply is_spec).
  cbn [length]. remember (S (length (n ++ r))) as m eqn:Em. cbn [inherit_loop]. rewrite Hs.
  change (relation_word ($"replicates")) with (Some Replicates). cbv beta iota zeta.
  assert (Hst : starts after_names r).
  { apply (starts_weaken _ _ _ (heads_starts _ _ Hr)). unfold after_groups, after_names. cbn [map fst]. intros x. rewrite !elem_of_cons. tauto. }
  rewrite (names_ok _ _ _ Hn true r ([], r) Hst); [cbn [fst snd]; by rewrite app_nil_r| |lia].
  intros. by apply groups_stop.
Qed.
Lemma names_kind k n l : names_of k n l -> l <> [] /\ Forall (fun a => an_kind a = k) l.
Proof. induction 1 as [|? ? ? ? ? ? ? ? ? ? ? [_ IH]]; (split; [done|]); repeat constructor; done. Qed.
Lemma groups_kind g l : groups_of g l -> Forall (fun a => an_kind a = Extends \/ an_kind a = Implements) l.
Proof.
  induction 1 as [|w k a l b l' Hw Hk Hn Hg IH]; [constructor|]. apply Forall_app. split; [|done].
  apply relation_meaning in Hk as [_ Hk]. apply names_kind in Hn as [_ Hn]. apply (Forall_impl _ _ _ Hn). intros x ->. done.
Qed.

(** ** Kinds of declarations *)
Definition lead_types : list ttype := [VISIBILITY; LANGUAGE_FEATURE_STATE; MEMORY_LAYOUT].
Definition leads (a : list token) : Prop := Forall (fun t => k_type t ∈ lead_types) a.
Lemma leads_app a b : leads a -> leads b -> leads (a ++ b).
Proof. apply Forall_app_2. Qed.
Lemma opt_leads {A} ty mean (d : A) a v : opt_word ty mean d a v -> ty ∈ lead_types -> leads a.
Proof. intros [|t v' Ht _] H; [constructor|]. constructor; [by rewrite Ht|constructor]. Qed.
Lemma skip_lead ty a c r : leads a -> k_type c ∉ lead_types -> ty ∈ lead_types -> exists a', leads a' /\ skip ty (a ++ c :: r) = Ok (a' ++ c :: r).
Proof.
  intros Ha Hc Hty. destruct a as [|t a].
  - exists []. split; [constructor|]. cbn [app skip]. replace (is c ty) with false; [done|]. symmetry. apply is_not. intros E. by rewrite E in Hc.
  - apply Forall_cons in Ha as [Ht Ha]. cbn [app skip]. destruct (is t ty).
    + exists a. done.
    + exists (t :: a). split; [by constructor|done].
Qed.
Lemma at_word_lead w a c r : leads a -> ~ sym RESERVED_WORD w c -> at_word w (a ++ c :: r) = Ok false.
Proof.
  intros Ha Hc. destruct a as [|t a]; cbn [app at_word].
  - destruct (is c RESERVED_WORD) eqn:E1; [|done]. destruct (str_eqb (k_text c) w) eqn:E2; [|done]. exfalso. apply Hc.
    apply is_spec in E1. apply bool_decide_eq_true in E2. done.
  - apply Forall_cons in Ha as [Ht _]. replace (is t RESERVED_WORD) with false; [done|]. symmetry. apply is_not. intros E. rewrite E in Ht. revert Ht.
    unfold lead_types. notin.
Qed.
Lemma is_object_no a c r : leads a -> k_type c ∉ lead_types -> ~ sym RESERVED_WORD ($"object") c -> is_object (a ++ c :: r) = Ok false.
Proof.
  intros Ha Hc Hw. unfold is_object.
  destruct (skip_lead VISIBILITY a c r Ha Hc ltac:(inl)) as (a1 & H1 & ->). cbn [rbind].
  destruct (skip_lead LANGUAGE_FEATURE_STATE a1 c r H1 Hc ltac:(inl)) as (a2 & H2 & ->). cbn [rbind].
  destruct (skip_lead MEMORY_LAYOUT a2 c r H2 Hc ltac:(inl)) as (a3 & H3 & ->). cbn [rbind]. by apply at_word_lead.
Qed.
Lemma is_interface_no a c r : leads a -> k_type c ∉ lead_types -> ~ sym RESERVED_WORD ($"interface") c -> is_interface (a ++ c :: r) = Ok false.
Proof.
  intros Ha Hc Hw. unfold is_interface.
  destruct (skip_lead VISIBILITY a c r Ha Hc ltac:(inl)) as (a1 & H1 & ->). cbn [rbind].
  destruct (skip_lead LANGUAGE_FEATURE_STATE a1 c r H1 Hc ltac:(inl)) as (a2 & H2 & ->). cbn [rbind]. by apply at_word_lead.
Qed.
Lemma is_namespace_no a c r : leads a -> k_type c ∉ lead_types -> ~ sym RESERVED_WORD ($"namespace") c -> is_namespace (a ++ c :: r) = Ok false.
Proof.
  intros Ha Hc Hw. unfold is_namespace.
  destruct (skip_lead VISIBILITY a c r Ha Hc ltac:(inl)) as (a1 & H1 & ->). cbn [rbind].
  destruct (skip_lead LANGUAGE_FEATURE_STATE a1 c r H1 Hc ltac:(inl)) as (a2 & H2 & ->). cbn [rbind]. by apply at_word_lead.
Qed.
Lemma skip_opt {A} ty mean (d : A) a v L r : opt_word ty mean d a v -> starts L r -> ty ∉ L -> skip ty (a ++ r) = Ok r.
Proof.
  intros [|t v' Ht _] (h & y & -> & Hh) HL; cbn [app skip].
  - replace (is h ty) with false; [done|]. symmetry. apply is_not. intros E. by rewrite E in Hh.
  - by replace (is t ty) with true by (symmetry; by apply is_spec).
Qed.
Lemma at_word_yes w c r : sym RESERVED_WORD w c -> at_word w (c :: r) = Ok true.
Proof. intros [H1 H2]. cbn [at_word]. apply is_spec in H1. rewrite H1, H2. unfold str_eqb. by rewrite bool_decide_eq_true_2. Qed.
Lemma check_no a c r w exp : leads a -> Forall marked (a ++ [c]) -> k_type c ∉ optional_types -> ~ sym RESERVED_WORD w c -> w <> [] ->
  check_loop (a ++ c :: r) ((RESERVED_WORD, w) :: exp) = Ok false.
Proof.
  intros Ha Hm Hc Hw Hne.
  assert (Hcmp : forall c r, ~ sym RESERVED_WORD w c ->
    (if negb (is c RESERVED_WORD) then Ok false
     else if negb (bool_decide (w = [])) && negb (str_eqb w (k_text c)) then Ok false else check_loop r exp) = Ok false).
  { intros c0 r0 H. destruct (is c0 RESERVED_WORD) eqn:E1; [|done]. cbn [negb]. rewrite bool_decide_eq_false_2 by done. cbn [negb andb].
    destruct (str_eqb w (k_text c0)) eqn:E2; [|done]. exfalso. apply H. apply is_spec in E1. apply bool_decide_eq_true in E2. done. }
  assert (Hlead : forall t, k_type t ∈ lead_types -> ~ sym RESERVED_WORD w t).
  { intros t Ht [E _]. rewrite E in Ht. revert Ht. unfold lead_types. notin. }
  destruct a as [|t a]; cbn [app check_loop] in *.
  - apply Forall_cons in Hm as [Hm _]. destruct (k_opt c) eqn:E; [exfalso; by apply Hc, Hm|]. by apply Hcmp.
  - apply Forall_cons in Ha as [Ht Ha]. apply Forall_cons in Hm as [Hm _].
    assert (k_opt t = true) as ->.
    { apply Hm. unfold lead_types, optional_types in *. rewrite !elem_of_cons, elem_of_nil in *. tauto. }
    destruct a as [|t2 a]; cbn [app]; apply Hcmp; [done|]. apply Hlead. by apply Forall_cons in Ha as [? _].
Qed.
