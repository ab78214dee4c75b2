(** The reader of declarations accepts every declaration of the grammar and reads what it declares: the parts. *)
From Verif Require Import Base Base_Proofs Text_Model Text_Proofs TypeTable Tok_Model Parse_Model Parse_Spec Parse_Brackets Enum_Model Enum_Spec
  Enum_Proofs Decl_Model Decl_Spec.

Lemma is_spec t ty : is t ty = true <-> k_type t = ty.
Proof. apply ttype_eqb_spec. Qed.
Lemma is_not t ty : is t ty = false <-> k_type t <> ty.
Proof. apply ttype_eqb_neq. Qed.
Definition starts (L : list ttype) (ts : list token) : Prop := exists t r, ts = t :: r /\ k_type t ∈ L.
Lemma starts_cons L t r : k_type t ∈ L -> starts L (t :: r).
Proof. intros H. exists t, r. done. Qed.
Lemma starts_app L a b : starts L a -> starts L (a ++ b).
Proof. intros (t & r & -> & H). exists t, (r ++ b). done. Qed.
Lemma starts_weaken L L' ts : starts L ts -> L ⊆ L' -> starts L' ts.
Proof. intros (t & r & -> & H) HL. exists t, r. split; [done|]. by apply HL. Qed.
Lemma starts_opt {A} ty mean (d : A) a v L r : opt_word ty mean d a v -> starts L r -> starts (ty :: L) (a ++ r).
Proof.
  intros [|t v' Ht Hv] H; cbn [app].
  - apply (starts_weaken L); [done|]. intros x Hx. by right.
  - apply starts_cons. rewrite Ht. left.
Qed.
Lemma starts_nonempty L ts : starts L ts -> ts <> [].
Proof. intros (t & r & -> & _). done. Qed.
Ltac inl := apply (bool_decide_unpack _); by vm_compute.

(** ** Optional words *)
Lemma parse_word_ok {A} ty mean (conv : str -> A) d a v L r :
  opt_word ty mean d a v -> (forall s x, (s, x) ∈ mean -> conv s = x) -> starts L r -> ty ∉ L ->
  parse_word ty conv d (a ++ r) = Ok (v, r).
Proof.
  intros [|t v' Ht Hv] Hc (h & r' & -> & Hh) HL; cbn [app parse_word].
  - replace (is h ty) with false; [done|]. symmetry. apply is_not. intros E. by rewrite E in Hh.
  - replace (is t ty) with true by (symmetry; by apply is_spec). by rewrite (Hc _ _ Hv).
Qed.
Lemma visibility_meaning s x : (s, x) ∈ visibilities -> to_visibility s = x.
Proof. unfold visibilities. rewrite !elem_of_cons, elem_of_nil. intros H. destruct_or!; try done; by injection H as -> ->. Qed.
Lemma feature_meaning s x : (s, x) ∈ features -> to_feature s = x.
Proof. unfold features. rewrite !elem_of_cons, elem_of_nil. intros H. destruct_or!; try done; by injection H as -> ->. Qed.
Lemma layout_meaning s x : (s, x) ∈ layouts -> to_layout s = x.
Proof. unfold layouts. rewrite !elem_of_cons, elem_of_nil. intros H. destruct_or!; try done; by injection H as -> ->. Qed.
Lemma mutability_meaning s x : (s, x) ∈ mutabilities -> to_mutability s = x.
Proof. unfold mutabilities. rewrite !elem_of_cons, elem_of_nil. intros H. destruct_or!; try done; by injection H as -> ->. Qed.
Lemma access_meaning s x : (s, x) ∈ accesses -> to_access s = x.
Proof. unfold accesses. rewrite !elem_of_cons, elem_of_nil. intros H. destruct_or!; try done; by injection H as -> ->. Qed.

(** A head given by its type and text. *)
Definition heads (L : list (ttype * str)) (ts : list token) : Prop := exists t r, ts = t :: r /\ (k_type t, k_text t) ∈ L.
Lemma heads_cons ty s L t r : sym ty s t -> (ty, s) ∈ L -> heads L (t :: r).
Proof. intros [Ht Hs] H. exists t, r. by rewrite Ht, Hs. Qed.
Lemma heads_starts L ts : heads L ts -> starts (map fst L) ts.
Proof. intros (t & r & -> & H). apply starts_cons. apply elem_of_list_fmap. exists (k_type t, k_text t). done. Qed.
Lemma heads_app L a b : heads L a -> heads L (a ++ b).
Proof. intros (t & r & -> & H). exists t, (r ++ b). done. Qed.
Lemma parse_access_ok d a v L r :
  opt_word ACCESS_MODE accesses d a v -> heads L r -> ACCESS_MODE ∉ map fst L -> $"default" ∉ map snd L ->
  parse_access d (a ++ r) = Ok (v, r).
Proof.
  intros [|t v' Ht Hv] (h & r' & -> & Hh) H1 H2; cbn [app parse_access].
  - replace (is h ACCESS_MODE) with false.
    2: { symmetry. apply is_not. intros E. apply H1. apply elem_of_list_fmap. exists (k_type h, k_text h). by rewrite E at 1. }
    replace (str_eqb (k_text h) ($"default")) with false; [done|]. symmetry. apply bool_decide_eq_false. intros E. apply H2.
    apply elem_of_list_fmap. exists (k_type h, k_text h). by rewrite E at 1.
  - replace (is t ACCESS_MODE) with true by (symmetry; by apply is_spec). cbn [orb]. by rewrite (access_meaning _ _ Hv).
Qed.
Lemma throwing_of_ok x xv L r : throwing_of x xv -> heads L r -> $"throws" ∉ map snd L -> $"nothrow" ∉ map snd L ->
  parse_exceptions Nothrow (x ++ r) = Ok (xv, r).
Proof.
  intros [|t [Ht Hs]|t [Ht Hs]] (h & r' & -> & Hh) H1 H2; cbn [app parse_exceptions].
  - replace (to_throwing (k_text h)) with TUnspecified; [done|]. unfold to_throwing, str_eqb.
    rewrite !bool_decide_eq_false_2; [done| |]; intros E; [apply H1|apply H2];
      apply elem_of_list_fmap; exists (k_type h, k_text h); by rewrite E at 1.
  - by rewrite Hs.
  - by rewrite Hs.
Qed.

(** ** Types *)
Lemma identify_loop_ok p ns : path p ns -> forall t p' acc L r, p = t :: p' -> starts L r -> OPERATOR_SCOPE ∉ L ->
  identify_loop (acc ++ k_text t) (p ++ r) = Ok (acc ++ dotted ns, r).
Proof.
  induction 1 as [t [Ht Hn]|t d ts ns [Ht Hn] [Hd Hs] Hp IH]; intros t0 p' acc L r E (h & r' & -> & Hh) HL; injection E as <- <-.
  - cbn [app identify_loop]. replace (is t IDENTIFIER) with true by (symmetry; by apply is_spec).
    replace (is h OPERATOR_SCOPE) with false; [done|]. symmetry. apply is_not. intros E2. rewrite E2 in Hh. done.
  - cbn [app identify_loop]. replace (is t IDENTIFIER) with true by (symmetry; by apply is_spec).
    replace (is d OPERATOR_SCOPE) with true by (symmetry; by apply is_spec).
    destruct ts as [|u ts']; [inversion Hp|]. cbn [app].
    specialize (IH u ts' ((acc ++ k_text t) ++ k_text d) L (h :: r') eq_refl). cbn [app] in IH.
    rewrite (app_assoc _ (k_text d)). rewrite IH; [|by apply starts_cons|done].
    rewrite Hs, <- !app_assoc. destruct ns as [|n ns]; [inversion Hp|]. reflexivity.
Qed.
Lemma identify_ok p ns L r : path p ns -> starts L r -> OPERATOR_SCOPE ∉ L -> identify (p ++ r) = Ok (dotted ns, r).
Proof.
  intros Hp Hr HL. destruct p as [|t p]; [inversion Hp|]. unfold identify. cbn [app].
  apply (identify_loop_ok _ _ Hp t p [] L); done.
Qed.
Lemma design_loop_ok a xs g r : some_args a xs -> k_type g = COMPARE_GREATER -> design_loop (a ++ g :: r) = Ok (xs, r).
Proof.
  intros Ha Hg.
  assert (Hend : design_loop (g :: r) = Ok ([], r)).
  { cbn [design_loop]. by replace (is g COMPARE_GREATER) with true by (symmetry; by apply is_spec). }
  assert (Hn : forall t ty, k_type t <> ty -> is t ty = false) by (intros; by apply is_not).
  assert (Hy : forall t ty, k_type t = ty -> is t ty = true) by (intros; by apply is_spec).
  induction Ha as [a x Hx|a x c b xs Hx [Hc _] Hb IH].
  - destruct Hx as [t [Ht _]|t c k [Ht _] [Hc _] [Hk _]]; cbn [app]; remember (g :: r) as z eqn:Ez; cbn [design_loop].
    + rewrite (Hn t COMPARE_GREATER) by (rewrite Ht; done). subst z. rewrite (Hn g COLON) by (rewrite Hg; done).
      rewrite (Hn g COMMA) by (rewrite Hg; done). by rewrite Hend.
    + rewrite (Hn t COMPARE_GREATER) by (rewrite Ht; done). rewrite (Hy c COLON) by done. rewrite (Hy k IDENTIFIER) by done.
      subst z. rewrite (Hn g COMMA) by (rewrite Hg; done). by rewrite Hend.
  - rewrite <- app_assoc. cbn [app].
    destruct Hx as [t [Ht _]|t c' k [Ht _] [Hc' _] [Hk _]]; cbn [app]; remember (b ++ g :: r) as z eqn:Ez; cbn [design_loop].
    + rewrite (Hn t COMPARE_GREATER) by (rewrite Ht; done). rewrite (Hn c COLON) by (rewrite Hc; done).
      rewrite (Hy c COMMA) by done. by rewrite IH.
    + rewrite (Hn t COMPARE_GREATER) by (rewrite Ht; done). rewrite (Hy c' COLON) by done. rewrite (Hy k IDENTIFIER) by done.
      rewrite (Hy c COMMA) by done. by rewrite IH.
Qed.
Lemma runtime_loop_ok a xs g r : some_args a xs -> Forall (fun x => snd x = []) xs -> k_type g = COMPARE_GREATER ->
  runtime_loop (a ++ g :: r) = Ok (map fst xs, r).
Proof.
  intros Ha Hxs Hg.
  assert (Hend : runtime_loop (g :: r) = Ok ([], r)).
  { cbn [runtime_loop]. by replace (is g COMPARE_GREATER) with true by (symmetry; by apply is_spec). }
  assert (Hn : forall t ty, k_type t <> ty -> is t ty = false) by (intros; by apply is_not).
  assert (Hy : forall t ty, k_type t = ty -> is t ty = true) by (intros; by apply is_spec).
  induction Ha as [a x Hx|a x c b xs Hx [Hc _] Hb IH]; apply Forall_cons in Hxs as [E Hxs].
  - destruct Hx as [t [Ht _]|t c k [Ht _] [Hc _] (Hk & Hk2 & _)]; [|done]. cbn [app]; remember (g :: r) as z eqn:Ez; cbn [runtime_loop].
    rewrite (Hn t COMPARE_GREATER) by (rewrite Ht; done). subst z. rewrite (Hn g COLON) by (rewrite Hg; done).
    rewrite (Hn g COMMA) by (rewrite Hg; done). by rewrite Hend.
  - rewrite <- app_assoc. cbn [app].
    destruct Hx as [t [Ht _]|t c' k [Ht _] [Hc' _] (Hk & Hk2 & _)]; [|done]. cbn [app]; remember (b ++ g :: r) as z eqn:Ez; cbn [runtime_loop].
    rewrite (Hn t COMPARE_GREATER) by (rewrite Ht; done). rewrite (Hn c COLON) by (rewrite Hc; done).
    rewrite (Hy c COMMA) by done. by rewrite IH.
Qed.
Lemma collect_design_ok a xs L r : type_args a xs -> starts L r -> COMPARE_LESS ∉ L -> collect_design (a ++ r) = Ok (xs, r).
Proof.
  intros [|l a' g xs' [Hl _] [Hg _] Ha] (h & r' & -> & Hh) HL.
  - cbn [app collect_design]. replace (is h COMPARE_LESS) with false; [done|]. symmetry. apply is_not. intros E. by rewrite E in Hh.
  - cbn [app collect_design]. replace (is l COMPARE_LESS) with true by (symmetry; by apply is_spec).
    rewrite <- app_assoc. cbn [app]. by apply design_loop_ok.
Qed.
Lemma starts_args a xs L r : type_args a xs -> starts L r -> starts (COMPARE_LESS :: L) (a ++ r).
Proof.
  intros [|l a' g xs' [Hl _] [Hg _] Ha] H.
  - apply (starts_weaken L); [done|]. intros x Hx. by right.
  - cbn [app]. apply starts_cons. rewrite Hl. left.
Qed.
Lemma starts_path p ns r : path p ns -> starts [IDENTIFIER] (p ++ r).
Proof. intros [t [Ht _]|t d ts ns' [Ht _] _ _]; cbn [app]; apply starts_cons; rewrite Ht; left. Qed.
Lemma starts_type t td r : type_of t td -> starts [IDENTIFIER] (t ++ r).
Proof. intros [p ns a xs m v Hp _ _]. rewrite <- app_assoc. by apply (starts_path _ ns). Qed.
Lemma parse_type_ok t td L r : type_of t td -> starts L r ->
  MUTABILITY ∉ L -> COMPARE_LESS ∉ L -> OPERATOR_SCOPE ∉ L -> parse_type (t ++ r) = Ok (td, r).
Proof.
  intros [p ns a xs m v Hp Ha Hm] Hr H1 H2 H3. unfold parse_type. rewrite <- !app_assoc.
  assert (S1 : starts (MUTABILITY :: L) (m ++ r)) by (by apply (starts_opt _ _ _ _ _ _ _ Hm)).
  assert (S2 : starts (COMPARE_LESS :: MUTABILITY :: L) (a ++ m ++ r)) by (by apply (starts_args _ _ _ _ Ha)).
  rewrite (identify_ok _ _ _ _ Hp S2). 2: { rewrite !not_elem_of_cons. done. }
  cbn [rbind snd fst]. rewrite (collect_design_ok _ _ _ _ Ha S1). 2: { rewrite not_elem_of_cons. done. }
  cbn [rbind snd fst]. rewrite (parse_word_ok _ _ to_mutability _ _ _ _ _ Hm mutability_meaning Hr H1). done.
Qed.

(** ** Values *)
Lemma parse_value_ok ty v x r : value_of ty v x -> exists last, parse_value (v ++ r) ty = Ok (x, last :: r).
Proof.
  assert (Hy : forall t ty, k_type t = ty -> is t ty = true) by (intros; by apply is_spec).
  assert (Hn : forall t ty, k_type t <> ty -> is t ty = false) by (intros; by apply is_not).
  assert (He : forall s : str, str_eqb s s = true) by (intros; by apply bool_decide_eq_true_2).
  intros [t b -> [Ht Hs]|t n Hb H0 [Ht Hs]|m t n Hb H0 [Hm _] [Ht Hs]|t -> Ht|m t -> [Hm _] Ht|t -> Ht|m t -> [Hm _] Ht|t -> Ht|t Hty [Ht Hs]];
    cbn [app parse_value].
  - rewrite (Hn t MATH_SUBTRACT) by (rewrite Ht; done). rewrite Ht. rewrite He. cbn [negb]. rewrite Hs. exists t. by destruct b.
  - rewrite (Hn t MATH_SUBTRACT) by (rewrite Ht; done). rewrite Ht, Hs. cbn [app]. exists t.
    assert (Hz : string_to_int (print_int n) = n) by (rewrite <- (app_nil_r (print_int n)); apply string_to_int_print; [unfold int64_min, int64_max; lia|done]).
    rewrite Hz. destruct Hb as [[-> Hb]|[[->| ->] Hb]].
    + rewrite He. unfold to_int16. rewrite Z.mod_small by lia. do 3 f_equal. lia.
    + by vm_compute (str_eqb t_int t_int16).
    + by vm_compute (str_eqb t_int64 t_int16).
  - rewrite (Hy m MATH_SUBTRACT) by done. rewrite Ht, Hs. exists t.
    assert (Hz : string_to_int ([chr 45] ++ print_int n) = (- n)%Z).
    { replace ([chr 45] ++ print_int n) with (print_int (- n)).
      - rewrite <- (app_nil_r (print_int (- n))). apply string_to_int_print; [unfold int64_min, int64_max; lia|done].
      - unfold print_int. destruct n as [|p|p]; try lia. reflexivity. }
    rewrite Hz. destruct Hb as [[-> Hb]|[[->| ->] Hb]].
    + rewrite He. unfold to_int16. rewrite Z.mod_small by lia. do 3 f_equal. lia.
    + by vm_compute (str_eqb t_int t_int16).
    + by vm_compute (str_eqb t_int64 t_int16).
  - rewrite (Hn t MATH_SUBTRACT) by (rewrite Ht; done). rewrite Ht, He. by exists t.
  - rewrite (Hy m MATH_SUBTRACT) by done. rewrite Ht, He. by exists t.
  - rewrite (Hn t MATH_SUBTRACT) by (rewrite Ht; done). rewrite Ht, He. by exists t.
  - rewrite (Hy m MATH_SUBTRACT) by done. rewrite Ht, He. by exists t.
  - rewrite (Hn t MATH_SUBTRACT) by (rewrite Ht; done). rewrite Ht, He. by exists t.
  - rewrite (Hn t MATH_SUBTRACT) by (rewrite Ht; done). rewrite Ht.
    replace (existsb (str_eqb ty) atomic_names) with false.
    + rewrite Hs. cbn [negb]. by exists t.
    + symmetry. apply not_true_iff_false. intros E. apply existsb_exists in E as (y & Hin & Ey). apply bool_decide_eq_true in Ey. subst y.
      apply Hty. by apply elem_of_list_In.
Qed.
