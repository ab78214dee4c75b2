(** The reader of declarations accepts the grammar: whole declarations. *)
From Verif Require Import Base Base_Proofs Text_Model TypeTable Tok_Model Parse_Model Parse_Spec Parse_Brackets Enum_Model Enum_Spec
  Enum_Proofs Decl_Model Decl_Spec Decl_Proofs Decl_Proofs2.

Scheme declares_mut := Induction for declares Sort Prop
  with declare_mut := Induction for declare Sort Prop.
Combined Scheme declares_declare_ind from declares_mut, declare_mut.

(** ** Curly brackets *)
Definition no_curly (t : token) : Prop := k_type t <> BRACKET_CURLY_OPEN /\ k_type t <> BRACKET_CURLY_CLOSE.
Notation nest := (nested BRACKET_CURLY_OPEN BRACKET_CURLY_CLOSE).
Lemma plain_nested a : Forall no_curly a -> nest a.
Proof. induction 1 as [|t a [H1 H2] _ IH]; constructor; done. Qed.
Lemma sym_no_curly ty s t : sym ty s t -> ty <> BRACKET_CURLY_OPEN -> ty <> BRACKET_CURLY_CLOSE -> no_curly t.
Proof. intros [H _] ? ?. unfold no_curly. by rewrite H. Qed.
Lemma ident_no_curly t : ident t -> no_curly t.
Proof. intros [H _]. unfold no_curly. by rewrite H. Qed.
Lemma opt_no_curly {A} ty mean (d : A) a v : opt_word ty mean d a v -> ty <> BRACKET_CURLY_OPEN -> ty <> BRACKET_CURLY_CLOSE -> Forall no_curly a.
Proof. intros [|t v' Ht _] ? ?; repeat constructor; unfold no_curly; rewrite Ht; done. Qed.
Ltac nc := first [by eapply ident_no_curly | by (eapply sym_no_curly; [eassumption|discriminate|discriminate]) | unfold no_curly; match goal with H : k_type ?t = _ |- context [k_type ?t] => rewrite H end; done].
Lemma path_no_curly p ns : path p ns -> Forall no_curly p.
Proof. induction 1; repeat constructor; try nc; done. Qed.
Lemma args_no_curly a xs : type_args a xs -> Forall no_curly a.
Proof.
  intros [|l a' g xs' Hl Hg Ha]; [constructor|]. constructor; [nc|]. apply Forall_app. split; [|repeat constructor; nc].
  assert (forall a x, one_arg a x -> Forall no_curly a) by (intros ? ? []; repeat constructor; nc).
  induction Ha as [|a0 x c b ys Hx Hc Hb IH]; [eauto|]. apply Forall_app. split; [eauto|]. constructor; [nc|done].
Qed.
Lemma type_no_curly t td : type_of t td -> Forall no_curly t.
Proof.
  intros [p ns a xs m v Hp Ha Hm]. rewrite !Forall_app. split; [by eapply path_no_curly|]. split; [by eapply args_no_curly|].
  eapply opt_no_curly; [done|discriminate..].
Qed.
Lemma default_no_curly ty d dv : default_of ty d dv -> Forall no_curly d.
Proof. intros [|e v x He Hv]; [constructor|]. constructor; [nc|]. destruct Hv; repeat constructor; nc. Qed.
Lemma param_no_curly a p : param_of a p -> Forall no_curly a.
Proof.
  intros [tt td n m mv ac av d dv Ht Hn Hm Ha Hd _|tt td ac av Ht Ha]; rewrite ?Forall_app.
  - split; [by eapply type_no_curly|]. constructor; [nc|]. rewrite !Forall_app.
    split; [eapply opt_no_curly; [done|discriminate..]|]. split; [eapply opt_no_curly; [done|discriminate..]|]. by eapply default_no_curly.
  - split; [by eapply type_no_curly|]. eapply opt_no_curly; [done|discriminate..].
Qed.
Lemma params_no_curly a ps : params_of a ps -> Forall no_curly a.
Proof.
  intros [|a' ps' H]; [constructor|]. induction H as [a1 p Hp|a1 p c b qs Hp Hc Hb IH]; [by eapply param_no_curly|].
  apply Forall_app. split; [by eapply param_no_curly|]. constructor; [nc|done].
Qed.
Lemma names_no_curly k n l : names_of k n l -> Forall no_curly n.
Proof.
  induction 1 as [p ns a xs Hp Ha|p ns a xs c b l Hp Ha Hc Hb IH]; rewrite !Forall_app.
  - split; [by eapply path_no_curly|by eapply args_no_curly].
  - split; [by eapply path_no_curly|]. split; [by eapply args_no_curly|]. constructor; [nc|done].
Qed.
Lemma groups_no_curly g l : groups_of g l -> Forall no_curly g.
Proof.
  induction 1 as [|w k a l b l' Hw Hk Hn Hg IH]; [constructor|]. constructor; [nc|]. apply Forall_app. split; [by eapply names_no_curly|done].
Qed.
Lemma spells_no_curly es e : spells es e -> Forall no_curly e.
Proof.
  assert (forall e a, spells_entry e a -> Forall no_curly a) by (intros ? ? []; repeat constructor; nc).
  induction 1 as [e a Ha|e es a c b Ha Hc Hb IH]; [eauto|]. apply Forall_app. split; [eauto|]. constructor; [nc|done].
Qed.
Lemma layout_opt c l v : layout_of c l v -> Forall no_curly l /\ leads l.
Proof.
  intros [|b|b l' v' H]; [by split; constructor..|]. split; [eapply opt_no_curly; [done|discriminate..]|]. eapply opt_leads; [done|inl].
Qed.
Lemma nested_block o b c l : sym BRACKET_CURLY_OPEN ($"{") o -> sym BRACKET_CURLY_CLOSE ($"}") c -> nest b -> nest l -> nest (o :: b ++ c :: l).
Proof. intros [? _] [? _] ? ?. by constructor. Qed.
Ltac plain := repeat first
  [ apply Forall_nil_2 | (apply Forall_cons; split; [nc|]) | (apply Forall_app; split)
  | by eapply path_no_curly | by eapply type_no_curly | by eapply args_no_curly | by eapply default_no_curly
  | by eapply params_no_curly | by eapply names_no_curly | by eapply groups_no_curly | by eapply spells_no_curly
  | by eapply layout_opt | by (eapply opt_no_curly; [eassumption|discriminate..]) ].
Lemma nested_plain a l : Forall no_curly a -> nest l -> nest (a ++ l).
Proof. intros Ha Hl. apply nested_app; [|done]. by apply plain_nested. Qed.
Lemma nested_one t l : no_curly t -> nest l -> nest (t :: l).
Proof. intros [? ?]. by constructor. Qed.
Ltac nestp := repeat first
  [ apply nested_nil | (apply nested_block; [done|done|try done|]) | (apply nested_one; [nc|]) | (apply nested_plain; [by plain|]) ].
Lemma declares_nested : (forall c a d, declares c a d -> nest a) /\ (forall c a ds, declare c a ds -> nest a).
Proof.
  apply declares_declare_ind.
  - intros. nestp.
  - intros. nestp.
  - intros. nestp.
  - intros. nestp.
  - intros. nestp.
  - intros. nestp.
  - intros. nestp.
  - intros c v vv f fv w t td o es e s cl Hv Hf Hvf Hw Ht Hargs Ho Hcl Hs Hsp _ _ _.
    apply nested_plain; [by plain|]. apply nested_plain; [by plain|]. apply nested_one; [nc|]. apply nested_plain; [by plain|].
    change (o :: e ++ [s; cl]) with (o :: e ++ [s] ++ [cl]). rewrite app_assoc.
    apply nested_block; [done..| |constructor]. apply plain_nested. plain.
  - intros. nestp.
  - intros c v vv l lv f fv t td n po p ps pc m mv x xv b bv Hv Hl Hf Ht Hn Hpo Hpc Hp Hm Hx _ Hb.
    apply nested_plain; [by plain|]. apply nested_plain; [by plain|]. apply nested_plain; [by plain|]. apply nested_plain; [by plain|].
    apply nested_one; [nc|]. apply nested_one; [nc|]. apply nested_plain; [by plain|]. apply nested_one; [nc|].
    apply nested_plain; [by plain|]. apply nested_plain; [destruct Hx; plain|].
    destruct Hb as [s Hs _|o b' c' Ho Hc' _ Hb']; nestp.
  - constructor.
  - intros c a d b ds _ Ha _ Hb. by apply nested_app.
Qed.

(** The tokens of a block. *)
Lemma collect_ok o b c r : sym BRACKET_CURLY_OPEN ($"{") o -> sym BRACKET_CURLY_CLOSE ($"}") c -> nest b ->
  parser_collect_scope (o :: b ++ c :: r) = Ok (b, c :: r).
Proof. intros [Ho _] [Hc _] Hb. apply parser_collect_iff. exists o, c, r. done. Qed.

(** ** Members and methods *)
Definition place_of (c : ctx) : place := match c with InSpace => Space | InObject b | InInterface b => Blue b end.
Definition iface_of (c : ctx) : bool := match c with InInterface _ => true | _ => false end.
Lemma place_of_const c : place_const (place_of c) = ctx_const c.
Proof. by destruct c. Qed.
Lemma place_of_structor c n : is_structor (place_of c) n = structor c n.
Proof. by destruct c. Qed.
Lemma layout_read c l lv r L : layout_of c l lv -> starts L r -> MEMORY_LAYOUT ∉ L ->
  (if iface_of c then Ok (Abstract, l ++ r)
   else match place_of c with Space => Ok (Static, l ++ r) | Blue _ => parse_word MEMORY_LAYOUT to_layout Virtual (l ++ r) end) = Ok (lv, r).
Proof.
  intros [|b|b l' v' H] Hr HL; try done. cbn [iface_of place_of]. by apply (parse_word_ok _ _ to_layout _ _ _ _ _ H layout_meaning Hr).
Qed.
Lemma type_args_names t td : type_of t td -> existsb no_run_type (td_args td) = false.
Proof.
  intros [p ns a xs m v _ Ha _]. cbn [td_args]. destruct Ha as [|l a' g xs' _ _ Ha]; [done|].
  assert (Ho : forall a x, one_arg a x -> fst x <> []) by (intros ? ? [? (_ & ? & _)|? ? ? (_ & ? & _) _ _]; done).
  induction Ha as [a0 x Hx|a0 x c b ys Hx Hc Hb IH]; cbn [existsb]; unfold no_run_type at 1; rewrite bool_decide_eq_false_2 by (by eapply Ho); done.
Qed.
Lemma member_tail_ok c v l f t td n m mv a av d dv s r :
  type_of t td -> opt_word MUTABILITY mutabilities Modify m mv -> opt_word ACCESS_MODE accesses ByValue a av ->
  (ctx_const c = true -> mv = Const) -> default_of (td_name td) d dv -> sym SEMICOLON ($";") s ->
  create_member (place_of c) v l f td n (m ++ a ++ d ++ s :: r) =
    Ok (DMember v l f td n mv av (match dv with Some x => x | None => if bool_decide (td_name td = t_string) then DText [] else DInt 0 end), s :: r).
Proof.
  intros Ht Hm Ha Hc Hd Hs. unfold create_member.
  assert (H0 : heads [(SEMICOLON, $";")] (s :: r)) by (apply (heads_cons SEMICOLON ($";")); [done|left]).
  assert (H1 : heads ((ASSIGN, $"=") :: [(SEMICOLON, $";")]) (d ++ s :: r)) by (by apply (heads_default _ _ _ _ _ Hd)).
  assert (H2 : starts (ACCESS_MODE :: [ASSIGN; SEMICOLON]) (a ++ d ++ s :: r)).
  { apply (starts_opt _ _ _ _ _ _ _ Ha). by apply (heads_starts _ _ H1). }
  rewrite (parse_word_ok _ _ to_mutability _ _ _ _ _ Hm mutability_meaning H2) by notin. cbn [rbind snd fst].
  rewrite (parse_access_ok _ _ _ _ _ Ha H1) by notin. cbn [rbind snd fst]. rewrite place_of_const.
  assert (ctx_const c && negb (is_const mv) = false) as ->.
  { destruct (ctx_const c); [|done]. by rewrite Hc. }
  assert (is s SEMICOLON = true) as Es by (apply is_spec; by destruct Hs).
  destruct Hd as [|e x y He Hx].
  - cbn [app]. replace (is s ASSIGN) with false by (symmetry; apply is_not; destruct Hs as [-> _]; done).
    cbn [rbind snd fst expect_at]. rewrite Es. done.
  - cbn [app]. replace (is e ASSIGN) with true by (symmetry; apply is_spec; by destruct He).
    destruct (parse_value_ok _ _ _ (s :: r) Hx) as (last & ->). cbn [rbind snd fst next expect_at]. by rewrite Es.
Qed.
Lemma body_heads lv fv b bv r : body_of lv fv b bv -> heads [(BRACKET_CURLY_OPEN, $"{"); (SEMICOLON, $";")] (b ++ r).
Proof.
  intros [s Hs _|o b' c Ho _ _ _]; cbn [app].
  - apply (heads_cons SEMICOLON ($";")); [done|right; left].
  - apply (heads_cons BRACKET_CURLY_OPEN ($"{")); [done|left].
Qed.
Lemma throwing_starts x xv L r : throwing_of x xv -> starts L r -> starts (MODIFIER :: IDENTIFIER :: L) (x ++ r).
Proof.
  intros [|t [Ht _]|t [Ht _]] H; cbn [app].
  - apply (starts_weaken L); [done|]. intros y Hy. by do 2 right.
  - apply starts_cons. rewrite Ht. left.
  - apply starts_cons. rewrite Ht. right. left.
Qed.
Lemma method_tail_ok c v lv fv t td n po p ps pc m mv x xv b bv l r :
  type_of t td -> layout_of c l lv -> sym PARENTHESIS_OPEN ($"(") po -> sym PARENTHESIS_CLOSE ($")") pc -> params_of p ps ->
  opt_word MUTABILITY mutabilities (if structor c n then Modify else Const) m mv -> throwing_of x xv ->
  (ctx_const c = true -> structor c n = false -> mv = Const) -> body_of lv fv b bv ->
  exists last, create_method (iface_of c) (place_of c) v lv fv td n (po :: p ++ pc :: m ++ x ++ b ++ r) =
    Ok (DMethod v lv fv td n ps mv xv bv, last :: r).
Proof.
  intros Ht Hl Hpo Hpc Hp Hm Hx Hc Hb. unfold create_method.
  assert (iface_of c && negb match lv with Abstract => true | _ => false end = false) as ->.
  { destruct Hl as [|b0|b0 l v0 _]; done. }
  rewrite (parse_params_ok _ _ _ _ _ Hp Hpo Hpc). cbn [rbind snd fst next]. rewrite place_of_structor.
  pose proof (body_heads _ _ _ _ r Hb) as H1.
  assert (H2 : starts (MODIFIER :: IDENTIFIER :: [BRACKET_CURLY_OPEN; SEMICOLON]) (x ++ b ++ r)).
  { apply (throwing_starts _ _ _ _ Hx). by apply (heads_starts _ _ H1). }
  rewrite (parse_word_ok _ _ to_mutability _ _ _ _ _ Hm mutability_meaning H2) by notin. cbn [rbind snd fst].
  rewrite (throwing_of_ok _ _ _ _ Hx H1) by notin. cbn [rbind snd fst]. rewrite place_of_const.
  assert (negb (structor c n) && ctx_const c && negb (is_const mv) = false) as ->.
  { destruct (structor c n), (ctx_const c); try done. by rewrite Hc. }
  assert (Hargs : match place_of c with
     | Space => existsb no_run_type (td_args td) | Blue _ => false end = false).
  { rewrite (type_args_names _ _ Ht). by destruct (place_of c). }
  destruct Hb as [s [Hs1 Hs2] Hor|o b' c' Ho Hc' Hna Hn].
  - cbn [app]. replace (is s BRACKET_CURLY_OPEN) with false by (symmetry; apply is_not; rewrite Hs1; done).
    assert (negb match lv with Abstract => true | _ => false end && negb match fv with NotImplemented => true | _ => false end = false) as ->.
    { destruct Hor as [->| ->]; [done|]. by destruct lv. }
    cbn [rbind snd fst]. rewrite Hargs. by exists s.
  - cbn [app]. rewrite <- app_assoc. cbn [app]. replace (is o BRACKET_CURLY_OPEN) with true by (symmetry; apply is_spec; by destruct Ho).
    assert (match lv with Abstract => true | _ => false end = false) as -> by (by destruct lv).
    rewrite (collect_ok _ _ _ _ Ho Hc' Hn). cbn [rbind snd fst]. rewrite Hargs. by exists c'.
Qed.
