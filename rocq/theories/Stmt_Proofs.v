(** Every text the grammar of statements derives is read as the tree it denotes. *)
From Coq Require Import Floats.SpecFloat.
From Verif Require Import Base Base_Proofs Text_Model Tok_Model TypeTable TypeSys_Model Value_Model Parse_Model Parse_Spec
  Parse_Brackets Parse_Complete Parse_Sound Parse_Ends Decl_Model Stmt_Model Stmt_Spec.

Scheme written_ind2 := Induction for written Sort Prop
  with written_opt_ind2 := Induction for written_opt Sort Prop
  with written_list_ind2 := Induction for written_list Sort Prop
  with written_cases_ind2 := Induction for written_cases Sort Prop
  with written_clauses_ind2 := Induction for written_clauses Sort Prop.
Combined Scheme written_all from written_ind2, written_opt_ind2, written_list_ind2, written_cases_ind2, written_clauses_ind2.

(** ** Brackets *)
Definition no_curly (t : token) : Prop := k_type t <> BRACKET_CURLY_OPEN /\ k_type t <> BRACKET_CURLY_CLOSE.
Lemma plain_nested ts : Forall no_curly ts -> nested_curly ts.
Proof. induction 1 as [|t ts [H1 H2] _ IH]; [constructor|]. apply nested_other; assumption. Qed.
Lemma curly_type t c : k_type t = c -> c <> BRACKET_CURLY_OPEN -> c <> BRACKET_CURLY_CLOSE -> no_curly t.
Proof. intros <- ? ?. split; assumption. Qed.
Lemma curly_in t l : k_type t ∈ l -> ty_in BRACKET_CURLY_OPEN l = false -> ty_in BRACKET_CURLY_CLOSE l = false -> no_curly t.
Proof. intros H A B. apply ty_in_spec in H. split; intros E; rewrite E in H; congruence. Qed.

Ltac ncurly := repeat first
  [ assumption
  | apply Forall_nil; exact I
  | match goal with H : true = true -> ?j = [] |- context [?j] => rewrite H by reflexivity end
  | match goal with H : true = true -> k_type ?t = _ |- _ => specialize (H eq_refl) end
  | match goal with H : true = true -> _ ∈ _ |- _ => specialize (H eq_refl) end
  | match goal with H : k_type ?t = ?c |- no_curly ?t => apply (curly_type t c H); discriminate end
  | match goal with H : k_type ?t ∈ ops ?k |- no_curly ?t => apply (curly_in t _ H); destruct k as [|[|[|?]]]; reflexivity end
  | match goal with H : k_type ?t ∈ ?l |- no_curly ?t => apply (curly_in t l H); reflexivity end
  | match goal with H : _ \/ _ |- no_curly ?t => destruct H as [H|H] end
  | apply Forall_cons; split | apply Forall_app; split ].
Lemma expr_plain_all :
  (forall p e ts x, denotes true p e ts x -> Forall no_curly ts) /\
  (forall ts l, denotes_args true ts l -> Forall no_curly ts).
Proof.
  apply (denotes_both true (fun p e ts x _ => Forall no_curly ts) (fun ts l _ => Forall no_curly ts)); intros; cbn [app]; ncurly.
Qed.
Lemma expr_plain k ts x : expr true k ts x -> nested_curly ts.
Proof. intros [e H]. apply plain_nested. exact (proj1 expr_plain_all _ _ _ _ H). Qed.
Lemma opt_plain ts x : opt_expr true ts x -> nested_curly ts.
Proof. destruct x; [apply expr_plain|intros ->; constructor]. Qed.
Lemma word_plain ty ts w : word true ty ts w -> ty <> BRACKET_CURLY_OPEN -> ty <> BRACKET_CURLY_CLOSE -> nested_curly ts.
Proof.
  destruct w as [s|]; cbn; [|intros ->; constructor].
  intros (t & -> & _ & [H|(H & _)]) ? ?; [|discriminate]. apply nested_single; congruence.
Qed.
Lemma nest_app a b : nested_curly a -> nested_curly b -> nested_curly (a ++ b).
Proof. intros. apply nested_app; auto. Qed.
Lemma nest_cons t l : no_curly t -> nested_curly l -> nested_curly (t :: l).
Proof. intros [? ?] ?. apply nested_other; assumption. Qed.
Lemma named_plain ts d : named_tokens true ts d -> nested_curly ts.
Proof.
  intros [t x m a mw aw Ht Hx Hm Ha]. specialize (Ht eq_refl). apply nest_cons; [ncurly|]. apply nest_cons; [ncurly|].
  apply nest_app; eapply word_plain; eauto; discriminate.
Qed.
Lemma parens_plain ts inner : parens ts inner -> nested_curly inner -> nested_curly ts.
Proof.
  intros (a & b & -> & Ha & Hb) H. apply nest_cons; [ncurly|]. apply nest_app; [exact H|]. apply nest_cons; [ncurly|constructor].
Qed.
Lemma curly_nested ts inner : curly ts inner -> nested_curly inner -> nested_curly ts.
Proof. intros (a & b & -> & Ha & Hb) H. apply nested_around; assumption. Qed.
Lemma keyword_plain t w : keyword t w -> no_curly t.
Proof. intros [H _]. ncurly. Qed.
Lemma ktext_plain t w : keyword_text true t w -> no_curly t.
Proof. intros [_ H]. ncurly. Qed.

Ltac nest := repeat first
  [ assumption
  | constructor; fail
  | match goal with H : true = true -> _ /\ _ |- _ => destruct (H eq_refl) as (? & ? & ?); clear H end
  | match goal with H : expr true _ ?ts _ |- nested_curly ?ts => exact (expr_plain _ _ _ H) end
  | match goal with H : expr true _ (?t :: ?ts) _ |- nested_curly (?t :: ?ts) => exact (expr_plain _ _ _ H) end
  | match goal with H : opt_expr true ?ts _ |- nested_curly ?ts => exact (opt_plain _ _ H) end
  | match goal with H : named_tokens true ?ts _ |- nested_curly ?ts => exact (named_plain _ _ H) end
  | match goal with H : word true _ ?ts _ |- nested_curly ?ts => apply (word_plain _ _ _ H); discriminate end
  | match goal with H : parens ?ts _ |- nested_curly ?ts => apply (parens_plain _ _ H) end
  | match goal with H : curly ?ts _ |- nested_curly ?ts => apply (curly_nested _ _ H) end
  | match goal with H : denotes true _ _ ?ts _ |- nested_curly ?ts => exact (plain_nested _ (proj1 expr_plain_all _ _ _ _ H)) end
  | match goal with H : keyword ?t _ |- no_curly ?t => exact (keyword_plain _ _ H) end
  | match goal with H : keyword_text true ?t _ |- no_curly ?t => exact (ktext_plain _ _ H) end
  | match goal with |- no_curly _ => ncurly end
  | apply nest_cons | apply nest_app ].

Theorem written_nested :
  (forall k ts s, written true k ts s -> nested_curly ts) /\
  (forall ts s, written_opt true ts s -> nested_curly ts) /\
  (forall ts l, written_list true ts l -> nested_curly ts) /\
  (forall ts l, written_cases true ts l -> nested_curly ts) /\
  (forall ts l, written_clauses true ts l -> nested_curly ts).
Proof.
  apply (written_all true (fun k ts s _ => nested_curly ts) (fun ts s _ => nested_curly ts) (fun ts l _ => nested_curly ts)
    (fun ts l _ => nested_curly ts) (fun ts l _ => nested_curly ts)); intros; try discriminate; nest.
Qed.

(** ** What can follow a statement *)
Definition quiet_head (rest : list token) : Prop :=
  match rest with [] => True | t :: _ => k_text t ∉ [$"catch"; $"finally"] end.
Definition no_else (rest : list token) : Prop := match rest with [] => True | t :: _ => ~ keyword t ($"else") end.
Definition follows (k : kind) (rest : list token) : Prop :=
  match k with
  | Full => quiet_head rest
  | OpenIf => quiet_head rest /\ no_else rest
  | Semi => exists t r, rest = t :: r /\ well_made t /\ spelled_ok t /\ (k_type t = SEMICOLON \/ k_type t = PARENTHESIS_CLOSE)
  end.

Definition head_types := [BRACKET_CURLY_OPEN; IDENTIFIER; PARENTHESIS_OPEN; SEMICOLON].
Definition head_words := [$"var"; $"assert"; $"break"; $"continue"; $"delete"; $"exit"; $"print"; $"return"; $"throw"; $"for";
  $"foreach"; $"if"; $"switch"; $"try"; $"while"].
(** How statements start. *)
Definition starts_stmt (t : token) : Prop := k_type t ∈ head_types \/ (k_type t = KEYWORD /\ k_text t ∈ head_words).

Ltac inl := apply elem_of_list_In; cbn; tauto.
Lemma written_starts k ts s : written true k ts s -> exists t r, ts = t :: r /\ starts_stmt t.
Proof.
  intros H. inversion H; subst;
    try match goal with H : keyword ?t ?w |- exists t' r, (?t :: ?l) = _ /\ _ =>
      destruct H as [? ?]; exists t, l; split; [reflexivity|right; split; [assumption|]];
      match goal with H : k_text t = _ |- _ => rewrite H; inl end end;
    try match goal with H : named_tokens true _ _ |- _ => inversion H; subst end;
    try match goal with H : curly _ _ |- _ => destruct H as (? & ? & -> & ? & _) end;
    try match goal with H : true = true -> k_type _ = _ |- _ => specialize (H eq_refl) end;
    (do 2 eexists; split; [reflexivity|left]; match goal with H : k_type ?t = _ |- k_type ?t ∈ _ => rewrite H end; inl).
Qed.

Lemma starts_quiet t r : spelled_ok t -> starts_stmt t -> quiet_head (t :: r) /\ no_else (t :: r).
Proof.
  intros K [H|[Ht H]]; cbn.
  - split.
    + intros W. assert (k_type t = KEYWORD \/ k_type t ∈ const_types) as [E|E].
      { apply K. apply elem_of_cons in W as [W|W]; [rewrite W; inl|]. apply elem_of_list_singleton in W. rewrite W. inl. }
      * rewrite E in H. unfold head_types in H. repeat (apply elem_of_cons in H as [H|H]; [discriminate|]). inversion H.
      * apply ty_in_spec in H, E. destruct (k_type t); discriminate.
    + intros [E _]. rewrite E in H. unfold head_types in H. repeat (apply elem_of_cons in H as [H|H]; [discriminate|]). inversion H.
  - unfold keyword, head_words in *. repeat (apply elem_of_cons in H as [H|H];
      [rewrite H; split; [|intros [_ E]; discriminate];
       intros W; apply elem_of_cons in W as [W|W]; [discriminate|]; apply elem_of_list_singleton in W; discriminate|]).
    inversion H.
Qed.
Lemma list_quiet ts l : written_list true ts l -> Forall spelled_ok ts -> quiet_head ts /\ no_else ts.
Proof.
  intros H K. inversion H; subst; [split; exact I|discriminate| |];
    match goal with H : written true _ _ _ |- _ => destruct (written_starts _ _ _ H) as (t & r & -> & Hs) end;
    inversion K; subst; cbn [app]; apply starts_quiet; assumption.
Qed.
Lemma follows_quiet k rest : quiet_head rest /\ no_else rest -> k <> Semi -> follows k rest.
Proof. intros [? ?] ?. destruct k; cbn; auto; congruence. Qed.

(** ** Expressions in statements *)
Section Reads.
Context (E : senv).
Notation inside := (inside E).
Notation statement := (statement E).
Notation statements := (statements E).

Definition stopper (t : token) : Prop := well_made t /\ k_type t ∈ [PARENTHESIS_CLOSE; COMMA; SEMICOLON; COLON].
Lemma stopper_stop t : stopper t -> stop t.
Proof.
  intros [W H]. apply stop_types; [exact W|].
  repeat (apply elem_of_cons in H as [H|H]; [rewrite H; apply ty_in_spec; reflexivity|]). inversion H.
Qed.
Lemma runs_now env w ts r n : runs env w ts r -> known w -> (10 * length ts + rank w < n)%nat -> parse env n w ts = r.
Proof.
  intros [n0 H0] K Hn. pose proof (ends env n w ts K Hn) as F.
  destruct (Nat.le_ge_cases n0 n) as [L|L]; [apply H0; exact L|].
  rewrite <- (H0 n0 (Nat.le_refl _)). symmetry. eapply more_fuel_le; [exact L|exact F|reflexivity].
Qed.
Lemma level_reads k sc ts x t r : (k <= 3)%nat -> expr true k ts x -> Forall well_made ts -> stopper t ->
  parse (inside sc) (rounds (ts ++ t :: r)) (WLevel k) (ts ++ t :: r) = done (elab_in E sc x) (t :: r).
Proof.
  intros Hk [e D] W Hs. apply stopper_stop in Hs.
  apply runs_now; [|cbn; lia|unfold rounds; cbn [rank]; lia].
  apply (proj1 (reads (inside sc)) _ _ _ _ D); auto using stop_fits, stop_hd, stop_noop.
  apply after_loop_done. apply stop_noop. exact Hs.
Qed.
Lemma expression_reads sc ts x t r : expr true 3 ts x -> Forall well_made ts -> stopper t ->
  expression E sc (ts ++ t :: r) = done (elab_in E sc x) (t :: r).
Proof. apply level_reads. lia. Qed.

Lemma eat_here ty t r : k_type t = ty -> eat ty (t :: r) = Ok r.
Proof. intros H. unfold eat. cbn [expect]. rewrite H, ttype_eqb_refl. reflexivity. Qed.
Lemma is_true t ty : k_type t = ty -> is t ty = true.
Proof. intros <-. unfold is. apply ttype_eqb_refl. Qed.
Lemma is_false t ty : k_type t <> ty -> is t ty = false.
Proof. intros H. unfold is. apply ttype_eqb_neq. exact H. Qed.

Lemma parens_reads sc ts inner x rest : parens ts inner -> expr true 3 inner x -> Forall well_made ts ->
  in_parens E sc (ts ++ rest) = done (elab_in E sc x) rest.
Proof.
  intros (a & b & -> & Ha & Hb) Hx W. inversion W as [|? ? _ W']; subst. apply Forall_app in W' as [W1 W2].
  inversion W2; subst. unfold in_parens. cbn [app]. rewrite <- app_assoc. cbn [app].
  rewrite eat_here by exact Ha. cbn [rbind]. rewrite (expression_reads _ _ _ _ _ Hx W1).
  - unfold done. destruct (elab_in E sc x); cbn [rbind fst snd]; [|reflexivity..]. rewrite eat_here by exact Hb. reflexivity.
  - split; [assumption|]. rewrite Hb. inl.
Qed.
Lemma here_stop ty t r : here ty (t :: r) = Ok (ttype_eqb (k_type t) ty).
Proof. reflexivity. Qed.
Lemma opt_reads sc ty ts x t r : ty ∉ starters -> opt_expr true ts x -> Forall well_made ts -> stopper t -> k_type t = ty ->
  unless ty (expression E sc) (ts ++ t :: r) = done (elab_opt E sc x) (t :: r).
Proof.
  intros Hty Hx W Hs Ht. unfold unless. destruct x as [x|]; cbn in Hx.
  - destruct Hx as [e D]. destruct (starts _ _ _ _ _ D) as (u & r' & -> & Hu). apply ty_in_spec in Hu.
    cbn [app here rbind]. rewrite (proj2 (ttype_eqb_neq _ _)) by congruence.
    change (u :: r' ++ t :: r) with ((u :: r') ++ t :: r). rewrite (expression_reads sc (u :: r') x t r (ex_intro _ e D) W Hs).
    unfold done. cbn [elab_opt]. destruct (elab_in E sc x); reflexivity.
  - subst. cbn. rewrite ttype_eqb_refl. reflexivity.
Qed.

Lemma tokens_app a b : tokens_ok (a ++ b) <-> tokens_ok a /\ tokens_ok b.
Proof. unfold tokens_ok. rewrite !Forall_app. tauto. Qed.
Lemma tokens_cons t b : tokens_ok (t :: b) <-> (well_made t /\ spelled_ok t) /\ tokens_ok b.
Proof. unfold tokens_ok. rewrite !Forall_cons. tauto. Qed.
Lemma tokens_nil : tokens_ok [].
Proof. split; constructor. Qed.

(** ** Declarations *)
Definition mut_of (mw : option str) : mutability := match mw with Some w => to_mutability w | None => Modify end.
Definition acc_of (d : access) (aw : option str) : access := match aw with Some w => to_access w | None => d end.
Lemma mutability_cases {A} mw (f : bool -> res A) :
  (match mut_of mw with MUnknown => Throw "SyntaxError" | _ => f (is_const (mut_of mw)) end) = let! c := mutability_of mw in f c.
Proof.
  destruct mw as [w|]; [|reflexivity]. cbn [mut_of mutability_of]. unfold to_mutability.
  destruct (str_eqb w ($"const")); [reflexivity|]. destruct (str_eqb w ($"modify")); reflexivity.
Qed.
Lemma reference_cases (b : bool) aw : by_reference (acc_of (if b then ByValue else ByReference) aw) = reference_of (negb b) aw.
Proof.
  destruct aw as [w|]; [|destruct b; reflexivity]. cbn [acc_of reference_of]. unfold to_access.
  destruct (str_eqb w ($"default")) eqn:D; [apply str_eqb_eq in D; subst; reflexivity|]. destruct (str_eqb w ($"ref")); reflexivity.
Qed.
Lemma mut_reads m mw t r : word true MUTABILITY m mw -> k_type t <> MUTABILITY ->
  parse_word MUTABILITY to_mutability Modify (m ++ t :: r) = Ok (mut_of mw, t :: r).
Proof.
  destruct mw as [w|]; cbn.
  - intros (u & -> & <- & [H|(H & _)]) _; [|discriminate]. cbn [app parse_word]. rewrite is_true by exact H. reflexivity.
  - intros -> H. cbn [app parse_word]. rewrite is_false by exact H. reflexivity.
Qed.
(** Tokens that end a declaration. *)
Definition ends_decl (t : token) : Prop := spelled_ok t /\ k_type t ∈ [SEMICOLON; PARENTHESIS_CLOSE; COLON; ASSIGN].
Lemma ends_decl_facts t : ends_decl t -> k_type t <> MUTABILITY /\ is t ACCESS_MODE = false /\ str_eqb (k_text t) ($"default") = false.
Proof.
  intros [K H]. assert (N : k_type t ∉ MUTABILITY :: ACCESS_MODE :: KEYWORD :: const_types).
  { repeat (apply elem_of_cons in H as [H|H]; [rewrite H; apply ty_in_false; reflexivity|]). inversion H. }
  split; [|split].
  - intros D. apply N. rewrite D. inl.
  - apply is_false. intros D. apply N. rewrite D. inl.
  - destruct (str_eqb _ _) eqn:D; [|reflexivity]. apply str_eqb_eq in D. exfalso. apply N.
    destruct K as [Q|Q]; [rewrite D; inl|rewrite Q; inl|]. do 3 apply elem_of_list_further. exact Q.
Qed.
Lemma acc_reads d a aw t r : word true ACCESS_MODE a aw -> ends_decl t ->
  parse_access d (a ++ t :: r) = Ok (acc_of d aw, t :: r).
Proof.
  intros H D. destruct (ends_decl_facts t D) as (_ & H1 & H2). destruct aw as [w|]; cbn in H.
  - destruct H as (u & -> & <- & [H|(H & _)]); [|discriminate]. cbn [app parse_access]. rewrite is_true by exact H. reflexivity.
  - subst. cbn [app parse_access]. rewrite H1, H2. reflexivity.
Qed.
Lemma mut_acc_reads m mw a aw t r : word true MUTABILITY m mw -> word true ACCESS_MODE a aw -> ends_decl t ->
  parse_word MUTABILITY to_mutability Modify (m ++ a ++ t :: r) = Ok (mut_of mw, a ++ t :: r).
Proof.
  intros Hm Ha D. destruct aw as [w|]; cbn in Ha.
  - destruct Ha as (u & -> & _ & [H|(H & _)]); [|discriminate]. cbn [app]. apply mut_reads; [exact Hm|congruence].
  - subst. cbn [app]. apply mut_reads; [exact Hm|]. apply ends_decl_facts. exact D.
Qed.

Definition with_rest {A B} (x : res (A * B)) (rest : list token) : res (A * B * list token) := let! y := x in Ok (y, rest).

(** What follows the name, the mutability and the access mode. *)
Definition decl_tail (init : bool) (sc1 : scopes) (ty : str) (node : option pexpr -> pstmt) (ref : bool) (ts : list token) :=
  let! assign := here ASSIGN ts in
  if assign : bool then
    if negb init then Throw "NotSupported"
    else
      let! ts1 := next ts in
      let! y := expression E sc1 ts1 in
      let! _ := get_type (pe_table (se_env E)) ty ASSIGN (ptype (fst y)) in
      Ok (node (Some (fst y)), sc1, snd y)
  else if init && ref && se_atomic E ty then Throw "NotSupported"
  else Ok (node None, sc1, ts).
Lemma declaration_head init sc t x m a mw aw u r :
  k_type x = IDENTIFIER -> word true MUTABILITY m mw -> word true ACCESS_MODE a aw -> ends_decl u ->
  declaration E init sc (t :: x :: m ++ a ++ u :: r) =
  match pe_name (inside sc) (k_text t) with
  | None => Throw "InvalidSymbol"
  | Some (KType ty _) =>
      let! c := mutability_of mw in
      if negb (pe_type (se_env E) ty) then Throw "Exception"
      else
        let! sc1 := define_local (k_text x) (KVar ty (se_atomic E ty)) sc in
        let ref := reference_of (negb (se_atomic E ty)) aw in
        decl_tail init sc1 ty (QDecl ty (k_text x) c ref) ref (u :: r)
  | _ => Throw "InvalidSymbol"
  end.
Proof.
  intros Hx Hm Ha D. unfold declaration. cbn [resolve_name]. destruct (pe_name (inside sc) (k_text t)) as [[ty at'| |ty at']|]; [| | |reflexivity];
    rewrite (proj2 (ttype_eqb_neq (k_type x) OPERATOR_SCOPE)) by congruence; cbn [rbind fst snd]; try reflexivity.
  unfold expect. rewrite Hx, ttype_eqb_refl. cbn [rbind].
  rewrite (mut_acc_reads _ _ _ _ _ _ Hm Ha D). cbn [rbind fst snd].
  rewrite <- (mutability_cases mw). destruct (mut_of mw); try reflexivity;
    (destruct (pe_type (se_env E) ty); cbn [negb]; [|reflexivity];
     destruct (define_local _ _ sc) as [sc1| | |]; cbn [rbind]; [|reflexivity..];
     rewrite (acc_reads _ _ _ _ _ Ha D); cbn [rbind fst snd]; rewrite reference_cases; reflexivity).
Qed.
Lemma elab_decl_eq init sc t x mw aw e : elab_decl E init sc (NamedType t x mw aw) e =
  match pe_name (inside sc) t with
  | None => Throw "InvalidSymbol"
  | Some (KType ty _) =>
      let! c := mutability_of mw in
      if negb (pe_type (se_env E) ty) then Throw "Exception"
      else
        let! sc1 := define_local x (KVar ty (se_atomic E ty)) sc in
        let ref := reference_of (negb (se_atomic E ty)) aw in
        match e with
        | Some e =>
            if negb init then Throw "NotSupported"
            else
              let! p := elab_in E sc1 e in
              let! _ := get_type (pe_table (se_env E)) ty ASSIGN (ptype p) in
              Ok (QDecl ty x c ref (Some p), sc1)
        | None => if init && ref && se_atomic E ty then Throw "NotSupported" else Ok (QDecl ty x c ref None, sc1)
        end
  | _ => Throw "InvalidSymbol"
  end.
Proof.
  unfold elab_decl, Stmt_Model.inside. cbn [pe_name nt_type nt_name nt_mut nt_acc].
  change (visible sc t) with (local sc t). destruct (local sc t) as [[]|]; [reflexivity..|]. destruct (pe_name (se_env E) t) as [[]|]; reflexivity.
Qed.
Lemma with_rest_bind {A B C} (x : res A) (f : A -> res (B * C)) rest :
  with_rest (let! y := x in f y) rest = let! y := x in with_rest (f y) rest.
Proof. destruct x; reflexivity. Qed.

Lemma decl_reads init sc ts d u r : named_tokens true ts d -> ends_decl u -> k_type u <> ASSIGN ->
  declaration E init sc (ts ++ u :: r) = with_rest (elab_decl E init sc d None) (u :: r).
Proof.
  intros [t x m a mw aw Ht Hx Hm Ha] D N. cbn [app]. rewrite <- app_assoc, (declaration_head _ _ _ _ _ _ _ _ _ _ Hx Hm Ha D), elab_decl_eq.
  destruct (pe_name (inside sc) (k_text t)) as [[ty at'| |ty at']|]; try reflexivity. rewrite !with_rest_bind.
  destruct (mutability_of mw); cbn [rbind]; try reflexivity. destruct (pe_type _ _); cbn [negb]; [|reflexivity].
  destruct (define_local _ _ _); cbn [rbind]; try reflexivity. unfold decl_tail. cbn [here rbind].
  rewrite (proj2 (ttype_eqb_neq _ _) N). destruct (_ && _); reflexivity.
Qed.
Lemma init_reads sc ts d q ts' x t r : named_tokens true ts d -> spelled_ok q -> k_type q = ASSIGN -> expr true 3 ts' x ->
  Forall well_made ts' -> stopper t ->
  declaration E true sc (ts ++ q :: ts' ++ t :: r) = with_rest (elab_decl E true sc d (Some x)) (t :: r).
Proof.
  intros [ty0 y m a mw aw Ht Hy Hm Ha] Kq Hq Hx W Hs.
  assert (D : ends_decl q) by (split; [exact Kq|rewrite Hq; inl]).
  cbn [app]. rewrite <- app_assoc, (declaration_head _ _ _ _ _ _ _ _ _ _ Hy Hm Ha D), elab_decl_eq.
  destruct (pe_name (inside sc) (k_text ty0)) as [[ty at'| |ty at']|]; try reflexivity. rewrite !with_rest_bind.
  destruct (mutability_of mw); cbn [rbind]; try reflexivity. destruct (pe_type _ _); cbn [negb]; [|reflexivity].
  destruct (define_local _ _ _) as [sc1| | |]; cbn [rbind]; try reflexivity. unfold decl_tail. cbn [here rbind next].
  rewrite Hq, ttype_eqb_refl, (expression_reads _ _ _ _ _ Hx W Hs). unfold done.
  destruct (elab_in E sc1 x); cbn [rbind fst snd]; try reflexivity. destruct (get_type _ _ _ _); reflexivity.
Qed.
Lemma var_reads sc n m a q ts mw aw x t r : k_type n = IDENTIFIER -> word true MUTABILITY m mw -> word true ACCESS_MODE a aw ->
  spelled_ok q -> k_type q = ASSIGN -> expr true 3 ts x -> Forall well_made ts -> stopper t ->
  inference E sc (n :: m ++ a ++ q :: ts ++ t :: r) = with_rest (elab_var E sc (k_text n) mw aw x) (t :: r).
Proof.
  intros Hn Hm Ha Kq Hq Hx W Hs. assert (D : ends_decl q) by (split; [exact Kq|rewrite Hq; inl]).
  unfold inference, elab_var. change declare_name with define_local. cbn [expect]. rewrite Hn, ttype_eqb_refl. cbn [rbind].
  rewrite (mut_acc_reads _ _ _ _ _ _ Hm Ha D). cbn [rbind fst snd]. rewrite <- (mutability_cases mw).
  destruct (mut_of mw); try reflexivity;
    (rewrite (acc_reads _ _ _ _ _ Ha D); cbn [rbind fst snd]; rewrite eat_here by exact Hq; cbn [rbind];
     rewrite (expression_reads _ _ _ _ _ Hx W Hs); unfold done; destruct (elab_in E sc x) as [p| | |]; cbn [rbind fst snd]; try reflexivity;
     destruct (pe_type _ _); cbn [negb]; [|reflexivity]; destruct (define_local _ _ _); cbn [rbind]; try reflexivity;
     change (reference_of false aw) with (reference_of (negb true) aw); rewrite <- (reference_cases true aw); reflexivity).
Qed.

(** ** Calls, steps and names *)
Lemma effect_second e t ts x u r : denotes true Term e (t :: ts) x -> k_type t = IDENTIFIER -> effect x -> stopper u ->
  exists v l, ts ++ u :: r = v :: l /\
    k_type v ∈ [PARENTHESIS_OPEN; OPERATOR_INCREMENT; OPERATOR_DECREMENT; PARENTHESIS_CLOSE; COMMA; SEMICOLON; COLON].
Proof.
  intros D Ht F [_ Hu]. inversion D; subst; try (cbn in F; contradiction); try congruence.
  - exists u, r. split; [reflexivity|]. right; right; right. exact Hu.
  - do 2 eexists. split; [reflexivity|]. match goal with H : _ ∈ step_types |- _ => unfold step_types in H;
      repeat (apply elem_of_cons in H as [H|H]; [rewrite H; inl|]); inversion H end.
  - do 2 eexists. split; [reflexivity|]. match goal with H : k_type _ = PARENTHESIS_OPEN |- _ => rewrite H end. left.
Qed.
Lemma made_other l v : well_made v -> k_type v ∈ l -> forallb (fun c => negb (ty_in c (IDENTIFIER :: KEYWORD :: OPERATOR_SCOPE :: const_types ++ assign_types))) l = true ->
  k_type v <> IDENTIFIER /\ k_type v <> KEYWORD /\ k_type v <> OPERATOR_SCOPE /\ cat_constant v = false /\ cat_assignment v = false.
Proof.
  intros W H B. rewrite forallb_forall in B. specialize (B _ (proj1 (elem_of_list_In _ _) H)). apply negb_true_iff, ty_in_false in B.
  rewrite made_const, made_assign by exact W. rewrite !ty_in_false.
  split; [|split; [|split; [|split]]]; intros Q; apply B; try (rewrite Q; apply ty_in_spec; reflexivity);
    apply elem_of_cons; right; apply elem_of_cons; right; apply elem_of_cons; right; apply elem_of_app; [left|right]; exact Q.
Qed.
Lemma made_app_cons ts (u : token) r v l : ts ++ u :: r = v :: l -> Forall well_made ts -> well_made u -> well_made v.
Proof. destruct ts; intros H W Wu; cbn in H; injection H as <- <-; [exact Wu|]. inversion W. assumption. Qed.
Lemma effect_reads e sc t ts x u r : denotes true Term e (t :: ts) x -> k_type t = IDENTIFIER -> effect x -> stopper u ->
  Forall well_made (t :: ts) ->
  exists v l, ts ++ u :: r = v :: l /\ cat_assignment v = false /\
    identifier E sc (t :: v :: l) = let! p := elab_in E sc x in Ok (QExpr p, sc, u :: r).
Proof.
  intros D Ht F Hu W. destruct (effect_second e t ts x u r D Ht F Hu) as (v & l & El & Hv).
  assert (Wv : well_made v). { inversion W; subst. eapply made_app_cons; eauto. apply Hu. }
  destruct (made_other _ v Wv Hv eq_refl) as (V1 & V2 & V3 & V4 & V5).
  exists v, l. split; [exact El|]. split; [exact V5|].
  pose proof (proj1 (reads (inside sc)) _ _ _ _ D W (u :: r) (stop_fits _ _ e (stopper_stop _ Hu))) as R.
  cbn [app] in R. rewrite El in R. apply runs_now with (n := S (rounds (t :: v :: l))) in R; [|exact I|unfold rounds; cbn [rank]; lia].
  rewrite (term_name _ _ _ _ _ Ht V3) in R. unfold identifier, resolve_name.
  change (elab_in E sc x) with (elab (inside sc) x).
  unfold named in R. destruct (pe_name (inside sc) (k_text t)) as [k|]; cbn [rbind] in R |- *.
  - rewrite (proj2 (ttype_eqb_neq _ _) V3). cbn [rbind fst snd].
    rewrite (proj2 (ttype_eqb_neq _ _) V1), (proj2 (ttype_eqb_neq _ _) V2), V4. cbn [orb]. rewrite R.
    unfold done. destruct (elab (inside sc) x); reflexivity.
  - unfold done in R. destruct (elab (inside sc) x); cbn [rbind] in *; congruence.
Qed.

(** ** All statements *)
(** The labels of a switch statement and the blocks behind a try block, on their own. *)
Definition elab_labels (sc : scopes) := fix go (has : bool) (cs : list (option sx * list ss)) {struct cs} : res (list (pexpr * list pstmt) * list pstmt) :=
  match cs with
  | [] => Ok ([], [])
  | (Some x, l) :: cs =>
      let! p := elab_in E sc x in
      let! b := elab_list E ([] :: sc) l in
      match b with
      | [] => Throw "ControlFlowException"
      | _ => let! r := go has cs in Ok ((p, b) :: fst r, snd r)
      end
  | (None, l) :: cs =>
      if has then Throw "SyntaxError"
      else
        let! b := elab_list E ([] :: sc) l in
        match b with
        | [] => Throw "ControlFlowException"
        | _ => let! r := go true cs in Ok (fst r, b)
        end
  end.
Definition elab_handlers (sc : scopes) := fix go (has : bool) (cs : list (option (option named_type) * list ss)) {struct cs} : res (list clause) :=
  match cs with
  | [] => Ok []
  | (Some None, l) :: cs =>
      let! b := elab_list E ([] :: [] :: sc) l in let! r := go has cs in Ok (QCatch None b :: r)
  | (Some (Some d), l) :: cs =>
      let! d := elab_decl E false ([] :: sc) d None in
      let! b := elab_list E ([] :: snd d) l in let! r := go has cs in Ok (QCatch (Some (fst d)) b :: r)
  | (None, l) :: cs =>
      if has then Throw "SyntaxError"
      else let! b := elab_list E ([] :: sc) l in
           let! r := go (negb (bool_decide (b = []))) cs in Ok (QFinally b :: r)
  end.
Lemma elab_switch sc e cs : elab_stmt E sc (YSwitch e cs) =
  let! p := elab_in E sc e in
  let! r := elab_labels sc false cs in
  if negb (pe_type (se_env E) (ptype p)) then Throw "UnknownIdentifier" else Ok (Some (QSwitch p (fst r) (snd r)), sc).
Proof. reflexivity. Qed.
Lemma elab_try sc l cs : elab_stmt E sc (YTry l cs) =
  let! b := elab_list E ([] :: sc) l in
  let! r := elab_handlers sc false cs in Ok (Some (QTry b (catches r) (the_finally r)), sc).
Proof. reflexivity. Qed.
Lemma elab_block sc l : elab_stmt E sc (YBlock l) = let! b := elab_list E ([] :: sc) l in Ok (the_block b, sc).
Proof. reflexivity. Qed.

Lemma scope_reads tb body rest : curly tb body -> nested_curly body ->
  length tb = S (S (length body)) /\ exists b, k_type b = BRACKET_CURLY_CLOSE /\ collect_scope (tb ++ rest) = Ok (body, b :: rest).
Proof.
  intros (a & b & -> & Ha & Hb) H. split; [cbn [length]; rewrite app_length; cbn; lia|]. exists b. split; [exact Hb|].
  apply collect_scope_iff. exists a, b, rest. cbn [app]. rewrite <- app_assoc. auto.
Qed.
Lemma curly_ok tb body : curly tb body -> tokens_ok tb -> tokens_ok body.
Proof. intros (a & b & -> & _) H. apply tokens_cons in H as [_ H]. apply tokens_app in H. apply H. Qed.
Lemma simple_semi k ts s : written true k ts s -> simple s -> k = Semi.
Proof. destruct 1; cbn; intros; tauto. Qed.
Lemma simple_head k ts s : written true k ts s -> simple s -> forall t r, ts = t :: r -> k_type t <> SEMICOLON.
Proof.
  destruct 1; cbn [simple]; intros C t' r' Q; try tauto;
    try match goal with H : named_tokens true _ _ |- _ => destruct H as [? ? ? ? ? ? H _ _ _]; specialize (H eq_refl) end;
    try match goal with H : keyword _ _ |- _ => destruct H end; cbn [app] in Q; injection Q as -> _; congruence.
Qed.
Lemma follows_full k rest : quiet_head rest /\ no_else rest -> k <> Semi -> follows k rest.
Proof. intros [? ?] ?. destruct k; cbn; auto. congruence. Qed.
Lemma semi_stopper rest : follows Semi rest -> exists t r, rest = t :: r /\ stopper t /\ ends_decl t /\ k_type t <> ASSIGN /\ ~ keyword t ($"else").
Proof.
  intros (t & r & -> & W & K & H). exists t, r. unfold stopper, ends_decl, keyword.
  split; [reflexivity|]. destruct H as [H|H]; rewrite H; (split; [split; [exact W|inl]|]); (split; [split; [exact K|inl]|]); split; try discriminate; intros [? _]; discriminate.
Qed.
Lemma semicolon_follows c r : well_made c -> spelled_ok c -> k_type c = SEMICOLON \/ k_type c = PARENTHESIS_CLOSE -> follows Semi (c :: r).
Proof. intros. exists c, r. auto. Qed.
Lemma starts_not t ty : starts_stmt t -> ty ∉ [BRACKET_CURLY_OPEN; IDENTIFIER; PARENTHESIS_OPEN; SEMICOLON; KEYWORD] -> k_type t <> ty.
Proof.
  intros [H|[H _]] N Q; apply N; rewrite <- Q; [|rewrite H; inl]. unfold head_types in H.
  repeat (apply elem_of_cons in H as [H|H]; [rewrite H; inl|]). inversion H.
Qed.

Definition reads_stmt (k : kind) (ts : list token) (s : ss) : Prop :=
  tokens_ok ts -> forall sc rest n, follows k rest -> (2 * length (ts ++ rest) < n)%nat ->
  statement n sc (ts ++ rest) = with_rest (elab_stmt E sc s) rest.
Definition reads_opt (ts : list token) (o : option ss) : Prop :=
  match o with
  | None => ts = []
  | Some s => (exists t r, ts = t :: r /\ k_type t <> SEMICOLON /\ k_type t <> PARENTHESIS_CLOSE) /\ reads_stmt Semi ts s
  end.
Definition reads_list (ts : list token) (l : list ss) : Prop :=
  tokens_ok ts -> forall sc n, (2 * length ts + 1 < n)%nat -> statements n sc ts = elab_list E sc l.
Definition reads_cases (ts : list token) (cs : list (option sx * list ss)) : Prop :=
  tokens_ok ts -> forall sc has c r n, k_type c = BRACKET_CURLY_CLOSE -> (2 * length (ts ++ c :: r) < n)%nat ->
  cases E n sc has (ts ++ c :: r) = done (elab_labels sc has cs) (c :: r).
Definition reads_clauses (ts : list token) (cs : list (option (option named_type) * list ss)) : Prop :=
  tokens_ok ts -> forall sc has rest n, quiet_head rest -> (2 * length (ts ++ rest) < n)%nat ->
  clauses E n sc has (ts ++ rest) = done (elab_handlers sc has cs) rest.

Ltac eqs := repeat match goal with |- context [str_eqb ?a ?b] =>
  lazymatch a with k_text _ => fail | _ => let v := eval vm_compute in (str_eqb a b) in change (str_eqb a b) with v; cbv iota end end.
(** Open [statement] at a keyword. *)
Ltac at_keyword K := let Kt := fresh "Kt" in let Kw := fresh "Kw" in destruct K as [Kt Kw]; cbn [Stmt_Model.statement];
  rewrite (is_false _ BRACKET_CURLY_OPEN), (is_false _ IDENTIFIER), (is_true _ KEYWORD) by congruence; cbv zeta; rewrite Kw;
  unfold flat; cbv zeta; eqs.
Ltac oks := repeat match goal with
  | H : tokens_ok (_ ++ _) |- _ => apply tokens_app in H as [? ?]
  | H : tokens_ok (_ :: _) |- _ => apply tokens_cons in H as [[? ?] ?]
  end.
Ltac len := repeat (progress (cbn [length app] in *; rewrite ?app_length in * )); lia.
Lemma stopper_is t : well_made t -> k_type t = SEMICOLON \/ k_type t = PARENTHESIS_CLOSE \/ k_type t = COLON \/ k_type t = COMMA -> stopper t.
Proof. intros W H. split; [exact W|]. destruct H as [H|[H|[H|H]]]; rewrite H; inl. Qed.
Lemma made_ok ts : tokens_ok ts -> Forall well_made ts.
Proof. intros [H _]. exact H. Qed.
Ltac stp := first [assumption | apply stopper_is; [assumption|tauto]].

Lemma statement_decl n sc t x l : k_type t = IDENTIFIER -> k_type x = IDENTIFIER -> well_made x ->
  statement (S n) sc (t :: x :: l) = let! y := declaration E true sc (t :: x :: l) in Ok (Some (fst (fst y)), snd (fst y), snd y).
Proof.
  intros Ht Hx W. cbn [Stmt_Model.statement]. rewrite (is_false _ BRACKET_CURLY_OPEN), (is_true _ IDENTIFIER) by congruence.
  rewrite made_assign by exact W. replace (ty_in (k_type x) assign_types) with false by (rewrite Hx; reflexivity).
  f_equal. unfold identifier. cbn [resolve_name]. destruct (pe_name _ _) as [k|] eqn:D.
  - rewrite (proj2 (ttype_eqb_neq (k_type x) OPERATOR_SCOPE)) by congruence. cbn [rbind fst snd]. rewrite (proj2 (ttype_eqb_spec _ _) Hx). reflexivity.
  - cbn [rbind]. unfold declaration. cbn [resolve_name]. rewrite D. reflexivity.
Qed.
Ltac flatten := cbn [app]; repeat (rewrite <- !app_assoc; cbn [app]).
Lemma with_some {A} (x : res (A * scopes)) rest :
  (let! y := with_rest x rest in Ok (Some (fst (fst y)), snd (fst y), snd y)) = with_rest (let! y := x in Ok (Some (fst y), snd y)) rest.
Proof. destruct x as [[]| | |]; reflexivity. Qed.
Lemma read_none ti i (ty : ttype) s r : reads_opt ti i -> ty = SEMICOLON \/ ty = PARENTHESIS_CLOSE -> k_type s = ty ->
  here ty (ti ++ s :: r) = Ok (match i with None => true | Some _ => false end).
Proof.
  intros H Q Hs. destruct i as [i|]; cbn in H.
  - destruct H as ((t & l & -> & N1 & N2) & _). cbn. f_equal. apply ttype_eqb_neq. destruct Q as [-> | ->]; congruence.
  - subst ti. cbn. rewrite Hs, ttype_eqb_refl. reflexivity.
Qed.

Theorem statements_read :
  (forall k ts s, written true k ts s -> reads_stmt k ts s) /\
  (forall ts s, written_opt true ts s -> reads_opt ts s) /\
  (forall ts l, written_list true ts l -> reads_list ts l) /\
  (forall ts l, written_cases true ts l -> reads_cases ts l) /\
  (forall ts l, written_clauses true ts l -> reads_clauses ts l).
Proof.
  apply (written_all true (fun k ts s _ => reads_stmt k ts s) (fun ts s _ => reads_opt ts s) (fun ts l _ => reads_list ts l)
    (fun ts l _ => reads_cases ts l) (fun ts l _ => reads_clauses ts l)).
  - (* ; *)
    intros t Ht _ sc rest [|n] _ Hn; [lia|]. cbn [app Stmt_Model.statement].
    rewrite (is_false _ BRACKET_CURLY_OPEN), (is_false _ IDENTIFIER), (is_false _ KEYWORD), (is_false _ PARENTHESIS_OPEN), (is_true _ SEMICOLON) by congruence.
    reflexivity.
  - (* a call, a step, a name *)
    intros e t ts x Ht D F W sc rest [|n] Hf Hn; [lia|]. specialize (F eq_refl). apply semi_stopper in Hf as (u & r & -> & Hu & _).
    destruct (effect_reads e sc t ts x u r D Ht F Hu (made_ok _ W)) as (v & l & El & Hv & R).
    cbn [app Stmt_Model.statement]. rewrite El, (is_false _ BRACKET_CURLY_OPEN), (is_true _ IDENTIFIER), Hv, R by congruence.
    cbn [elab_stmt]. destruct (elab_in E sc x); reflexivity.
  - (* ( expression ) *)
    intros o ts x Ho Hx W sc rest [|n] Hf Hn; [lia|]. apply semi_stopper in Hf as (u & r & -> & Hu & _).
    cbn [app Stmt_Model.statement]. rewrite (is_false _ BRACKET_CURLY_OPEN), (is_false _ IDENTIFIER), (is_false _ KEYWORD), (is_true _ PARENTHESIS_OPEN) by congruence.
    change (o :: ts ++ u :: r) with ((o :: ts) ++ u :: r). rewrite (expression_reads _ _ _ _ _ Hx (made_ok _ W) Hu).
    cbn [elab_stmt]. unfold done. destruct (elab_in E sc x); reflexivity.
  - (* assignment *)
    intros t u ts x Ht Hu Hx W sc rest [|n] Hf Hn; [lia|]. apply semi_stopper in Hf as (v & r & -> & Hv & _).
    cbn [app Stmt_Model.statement]. rewrite (is_false _ BRACKET_CURLY_OPEN), (is_true _ IDENTIFIER) by congruence.
    rewrite made_assign by (inversion W as [W' _]; inversion W' as [|? ? _ W'']; inversion W''; assumption).
    rewrite (proj2 (ty_in_spec _ _) Hu). unfold assignment.
    change (t :: u :: ts ++ v :: r) with ((t :: u :: ts) ++ v :: r). rewrite (expression_reads _ _ _ _ _ Hx (made_ok _ W) Hv).
    cbn [elab_stmt]. unfold done. destruct (elab_in E sc x) as [[]| | |]; reflexivity.
  - (* declaration *)
    intros ts d Hd W sc rest [|n] Hf Hn; [lia|]. apply semi_stopper in Hf as (v & r & -> & _ & Hv & Hv' & _).
    pose proof (decl_reads true sc ts d v r Hd Hv Hv') as R. destruct Hd as [t x m a mw aw Ht Hx Hm Ha]. specialize (Ht eq_refl).
    oks. revert R. flatten. intros R. rewrite (statement_decl _ _ _ _ _ Ht Hx) by assumption. rewrite R. apply with_some.
  - (* declaration with a value *)
    intros ts d q ts' x Hd Hq Hx W sc rest [|n] Hf Hn; [lia|]. apply semi_stopper in Hf as (v & r & -> & Hv & _). oks.
    assert (R := init_reads sc ts d q ts' x v r Hd). do 5 (specialize (R ltac:(auto using made_ok))).
    destruct Hd as [t y m a mw aw Ht Hy Hm Ha]. specialize (Ht eq_refl).
    oks. revert R. flatten. intros R. rewrite (statement_decl _ _ _ _ _ Ht Hy) by assumption. rewrite R. apply with_some.
  - (* var *)
    intros t c m a q ts mw aw x K Hc Hm Ha Hq Hx W sc rest [|n] Hf Hn; [lia|]. apply semi_stopper in Hf as (u & r & -> & Hu & _). oks.
    cbn [app]. rewrite <- !app_assoc. cbn [app]. at_keyword K.
    rewrite (var_reads sc c m a q ts mw aw x u r) by auto using made_ok. cbn [elab_stmt]. destruct (elab_var _ _ _ _ _ _) as [[]| | |]; reflexivity.
  - (* assert *)
    intros t ts inner x K Hp Hx W sc rest [|n] Hf Hn; [lia|]. apply semi_stopper in Hf as (u & r & -> & Hu & _). oks.
    cbn [app]. at_keyword K. destruct Hp as (a & b & -> & Ha & Hb). oks. cbn [app]. rewrite <- app_assoc. cbn [app].
    rewrite eat_here by exact Ha. cbn [rbind]. rewrite (expression_reads _ _ _ _ _ Hx); [|auto using made_ok|stp].
    cbn [elab_stmt elab_opt]. unfold done. destruct (elab_in E sc x); cbn [rbind fst snd here]; try reflexivity.
    rewrite (proj2 (ttype_eqb_neq _ _)) by congruence. cbn [rbind fst snd]. rewrite eat_here by exact Hb. reflexivity.
  - (* assert with a message *)
    intros t ts ts1 c ts2 x y K Hp Hx Hc Hy W sc rest [|n] Hf Hn; [lia|]. apply semi_stopper in Hf as (u & r & -> & Hu & _). oks.
    cbn [app]. at_keyword K. destruct Hp as (a & b & -> & Ha & Hb). oks. flatten.
    rewrite eat_here by exact Ha. cbn [rbind]. rewrite (expression_reads _ _ _ _ _ Hx); [|auto using made_ok|stp].
    cbn [elab_stmt elab_opt]. unfold done. destruct (elab_in E sc x); cbn [rbind fst snd here]; try reflexivity.
    rewrite Hc, ttype_eqb_refl. cbn [rbind next]. rewrite (expression_reads _ _ _ _ _ Hy); [|auto using made_ok|stp].
    unfold done. destruct (elab_in E sc y); cbn [rbind fst snd]; try reflexivity. rewrite eat_here by exact Hb. reflexivity.
  - (* break *)
    intros t c K Hc W sc rest [|n] Hf Hn; [lia|]. cbn [app]. at_keyword K. cbn [rbind fst snd]. rewrite eat_here by exact Hc. reflexivity.
  - (* continue *)
    intros t c K Hc W sc rest [|n] Hf Hn; [lia|]. cbn [app]. at_keyword K. cbn [rbind fst snd]. rewrite eat_here by exact Hc. reflexivity.
  - (* delete *)
    intros t ts c x K Hx Hc W sc rest [|n] Hf Hn; [lia|]. oks. cbn [app]. rewrite <- app_assoc. cbn [app]. at_keyword K.
    rewrite (expression_reads _ _ _ _ _ Hx); [|auto using made_ok|stp]. cbn [elab_stmt]. unfold done.
    destruct (elab_in E sc x); cbn [rbind fst snd]; try reflexivity. rewrite eat_here by exact Hc. reflexivity.
  - (* exit *)
    intros t ts inner c x K Hp Hx Hc W sc rest [|n] Hf Hn; [lia|]. oks. cbn [app]. rewrite <- app_assoc. cbn [app]. at_keyword K.
    rewrite (parens_reads _ _ _ _ _ Hp Hx) by auto using made_ok. cbn [elab_stmt]. unfold done.
    destruct (elab_in E sc x); cbn [rbind fst snd]; try reflexivity. rewrite eat_here by exact Hc. reflexivity.
  - (* print *)
    intros t ts inner c x K Hp Hx Hc W sc rest [|n] Hf Hn; [lia|]. oks. cbn [app]. rewrite <- app_assoc. cbn [app]. at_keyword K.
    rewrite (parens_reads _ _ _ _ _ Hp Hx) by auto using made_ok. cbn [elab_stmt]. unfold done.
    destruct (elab_in E sc x); cbn [rbind fst snd]; try reflexivity. rewrite eat_here by exact Hc. reflexivity.
  - (* return *)
    intros t ts c x K Hx Hc W sc rest [|n] Hf Hn; [lia|]. oks. cbn [app]. rewrite <- app_assoc. cbn [app]. at_keyword K.
    rewrite (opt_reads _ SEMICOLON _ _ c rest ltac:(apply ty_in_false; reflexivity) Hx); [|auto using made_ok|stp|exact Hc]. cbn [elab_stmt]. unfold done.
    destruct (elab_opt E sc x); cbn [rbind fst snd]; try reflexivity. rewrite eat_here by exact Hc. reflexivity.
  - (* throw *)
    intros t ts c x K Hx Hc W sc rest [|n] Hf Hn; [lia|]. oks. cbn [app]. rewrite <- app_assoc. cbn [app]. at_keyword K.
    rewrite (opt_reads _ SEMICOLON _ _ c rest ltac:(apply ty_in_false; reflexivity) Hx); [|auto using made_ok|stp|exact Hc]. cbn [elab_stmt]. unfold done.
    destruct (elab_opt E sc x); cbn [rbind fst snd]; try reflexivity. rewrite eat_here by exact Hc. reflexivity.
  - (* for *)
    intros t o ti s1 tc s2 tu p tb i c u k b K Ho Hi IHi Hc Hu IHu Hb IHb Hsep W sc rest [|n] Hf Hn; [lia|].
    destruct (Hsep eq_refl) as (S1 & S2 & Sp). oks. assert (Hn' : (2 * length ((t :: o :: ti ++ s1 :: tc ++ s2 :: tu ++ p :: tb) ++ rest) < S n)%nat) by exact Hn.
    revert Hn'. flatten. intros Hn'. at_keyword K. rewrite eat_here by exact Ho. cbn [rbind].
    rewrite (read_none ti i SEMICOLON s1 _ IHi) by auto. cbn [rbind elab_stmt].
    assert (Ri : (if match i with Some _ => false | None => true end
             then Ok (None, [] :: sc, ti ++ s1 :: tc ++ s2 :: tu ++ p :: tb ++ rest)
             else statement n ([] :: sc) (ti ++ s1 :: tc ++ s2 :: tu ++ p :: tb ++ rest)) =
       with_rest (match i with Some i => elab_stmt E ([] :: sc) i | None => Ok (None, [] :: sc) end) (s1 :: tc ++ s2 :: tu ++ p :: tb ++ rest)).
    { destruct i as [i|]; [|cbn in IHi; subst ti; reflexivity]. apply IHi; [assumption|apply semicolon_follows; auto|len]. }
    rewrite Ri. clear Ri. destruct (match i with Some _ => _ | None => _ end) as [[qi sc1]| | |]; cbn [rbind fst snd with_rest next]; try reflexivity.
    rewrite (opt_reads _ SEMICOLON tc c s2 (tu ++ p :: tb ++ rest) ltac:(apply ty_in_false; reflexivity) Hc); [|auto using made_ok|stp|exact S2].
    unfold done. destruct (elab_opt E sc1 c) as [qc| | |]; cbn [rbind fst snd next]; try reflexivity.
    rewrite (read_none tu u PARENTHESIS_CLOSE p _ IHu) by auto. cbn [rbind].
    assert (Ru : (if match u with Some _ => false | None => true end
             then Ok (None, sc1, tu ++ p :: tb ++ rest) else statement n sc1 (tu ++ p :: tb ++ rest)) =
       with_rest (match u with Some u => elab_stmt E sc1 u | None => Ok (None, sc1) end) (p :: tb ++ rest)).
    { destruct u as [u|]; [|cbn in IHu; subst tu; reflexivity]. apply IHu; [assumption|apply semicolon_follows; auto|len]. }
    match goal with |- rbind ?a _ = _ => change a with (if match u with Some _ => false | None => true end
             then Ok (None, sc1, tu ++ p :: tb ++ rest) else statement n sc1 (tu ++ p :: tb ++ rest)) end. rewrite Ru. clear Ru. destruct (match u with Some _ => _ | None => _ end) as [[qu sc2]| | |]; cbn [rbind fst snd with_rest next]; try reflexivity.
    rewrite IHb; [|assumption|exact Hf|len]. destruct (elab_stmt E sc2 b) as [[]| | |]; reflexivity.
  - (* foreach *)
    intros t o td q tx p tb d x k b K Ho Hd Hq Hx Hp Hb IHb W sc rest [|n] Hf Hn; [lia|]. oks. flatten. at_keyword K.
    rewrite eat_here by exact Ho. cbn [rbind].
    rewrite (decl_reads false _ td d q _ Hd) by (first [congruence|split; [assumption|rewrite Hq; inl]]). cbn [elab_stmt].
    destruct (elab_decl E false ([] :: sc) d None) as [[qd sc1]| | |]; cbn [rbind fst snd with_rest]; try reflexivity.
    rewrite eat_here by exact Hq. cbn [rbind]. rewrite (level_reads 1 _ _ x) by (first [lia|assumption|apply made_ok; assumption|stp]).
    unfold done. destruct (elab_in E sc1 x); cbn [rbind fst snd]; try reflexivity. destruct (se_each E _); cbn [rbind]; try reflexivity.
    rewrite eat_here by exact Hp. cbn [rbind]. rewrite IHb; [|assumption|exact Hf|len]. destruct (elab_stmt E sc1 b) as [[]| | |]; reflexivity.
  - (* if *)
    intros t ts inner c k ta a K Hp Hc Ha IHa W sc rest [|n] Hf Hn; [lia|]. oks. cbn [app]. rewrite <- app_assoc. at_keyword K.
    rewrite (parens_reads _ _ _ _ _ Hp Hc) by auto using made_ok. cbn [elab_stmt]. unfold done.
    destruct (elab_in E sc c) as [p| | |]; cbn [rbind fst snd]; try reflexivity.
    rewrite IHa; [|assumption| |len].
    2: { destruct k; cbn in Hf |- *; tauto. }
    destruct (elab_stmt E sc a) as [[q sc1]| | |]; cbn [rbind fst snd with_rest]; try reflexivity.
    assert (N : no_else rest).
    { destruct k; try apply Hf. apply semi_stopper in Hf as (v & r & -> & _ & _ & _ & Hv). exact Hv. }
    destruct rest as [|u r]; [reflexivity|].
    destruct (is u KEYWORD && str_eqb (k_text u) ($"else")) eqn:B; [|reflexivity].
    apply andb_true_iff in B as [B1 B2]. apply ttype_eqb_spec in B1. apply str_eqb_eq in B2. destruct N. split; assumption.
  - (* else *)
    intros t ts inner c ka ta a e k tb b K Hp Hc Ha IHa Hk He Hb IHb W sc rest [|n] Hf Hn; [lia|]. oks. flatten. at_keyword K.
    rewrite (parens_reads _ _ _ _ _ Hp Hc) by auto using made_ok. cbn [elab_stmt]. unfold done.
    destruct (elab_in E sc c) as [p| | |]; cbn [rbind fst snd]; try reflexivity. destruct He as [Et Ew]. rewrite (Hk eq_refl) in *.
    rewrite IHa; [|assumption| |len].
    2: { cbn. rewrite Ew. apply not_elem_of_cons. split; [discriminate|]. apply not_elem_of_cons. split; [discriminate|]. apply not_elem_of_nil. }
    destruct (elab_stmt E sc a) as [[q sc1]| | |]; cbn [rbind fst snd with_rest]; try reflexivity.
    rewrite (is_true _ KEYWORD Et), Ew. eqs. cbn [andb]. rewrite IHb; [|assumption|exact Hf|len].
    destruct (elab_stmt E sc1 b) as [[]| | |]; reflexivity.
  - (* switch *)
    intros t ts inner tc body x cs K Hp Hx Hc Hcs IHcs W sc rest [|n] Hf Hn; [lia|]. oks. flatten. at_keyword K.
    rewrite (parens_reads _ _ _ _ _ Hp Hx) by auto using made_ok. rewrite elab_switch. unfold done.
    destruct (elab_in E sc x) as [p| | |]; cbn [rbind fst snd]; try reflexivity.
    destruct Hc as (a & b & -> & Ha & Hb). oks. flatten. rewrite eat_here by exact Ha. cbn [rbind].
    rewrite IHcs; [|assumption|exact Hb|len]. unfold done. destruct (elab_labels sc false cs) as [[]| | |]; cbn [rbind fst snd]; try reflexivity.
    destruct (pe_type _ _); cbn [negb]; [|reflexivity]. rewrite eat_here by exact Hb. reflexivity.
  - (* try *)
    intros t tb body tc l cs K Hc _ Hl IHl Hcs IHcs W sc rest [|n] Hf Hn; [lia|]. oks. flatten. at_keyword K.
    destruct (scope_reads tb body (tc ++ rest) Hc (proj1 (proj2 (proj2 written_nested)) _ _ Hl)) as (Len & b & Hb & R).
    rewrite R. cbn [rbind fst snd]. rewrite elab_try. rewrite IHl; [|eapply curly_ok; eassumption|len].
    destruct (elab_list E ([] :: sc) l); cbn [rbind fst snd next]; try reflexivity.
    rewrite IHcs; [|assumption|exact Hf|len]. unfold done. destruct (elab_handlers sc false cs); reflexivity.
  - (* while *)
    intros t ts inner c k tb b K Hp Hc Hb IHb W sc rest [|n] Hf Hn; [lia|]. oks. flatten. at_keyword K.
    rewrite (parens_reads _ _ _ _ _ Hp Hc) by auto using made_ok. cbn [elab_stmt]. unfold done.
    destruct (elab_in E sc c) as [p| | |]; cbn [rbind fst snd]; try reflexivity.
    rewrite IHb; [|assumption|exact Hf|len]. destruct (elab_stmt E sc b) as [[]| | |]; reflexivity.
  - (* block *)
    intros ts body l Hc _ Hl IHl W sc rest [|n] Hf Hn; [lia|].
    destruct (scope_reads ts body rest Hc (proj1 (proj2 (proj2 written_nested)) _ _ Hl)) as (Len & b & Hb & R).
    rewrite elab_block. destruct Hc as (a & b' & -> & Ha & Hb'). cbn [app Stmt_Model.statement] in *. rewrite (is_true _ BRACKET_CURLY_OPEN) by exact Ha.
    rewrite R. cbn [rbind fst snd]. rewrite IHl; [|apply (curly_ok (a :: body ++ [b']) body); [exists a, b'; auto|assumption]|len].
    destruct (elab_list E ([] :: sc) l); reflexivity.
  - reflexivity.
  - (* the head of a for loop *)
    intros k ts s Hw IH Hs. specialize (Hs eq_refl). rewrite (simple_semi _ _ _ Hw Hs) in *. split; [|exact IH].
    destruct (written_starts _ _ _ Hw) as (t & r & -> & St). exists t, r. split; [reflexivity|].
    split; [|apply (starts_not _ _ St); apply ty_in_false; reflexivity].
    exact (simple_head _ _ _ Hw Hs t r eq_refl).
  - intros _ sc [|n] Hn; [lia|]. reflexivity.
  - discriminate.
  - (* a statement *)
    intros k ts s ts' l Hw IHw Hk Hl IHl W sc [|n] Hn; [lia|]. apply tokens_app in W as [W1 W2].
    destruct (written_starts _ _ _ Hw) as (t & r & -> & St). cbn [app Stmt_Model.statements].
    rewrite (is_false t ENDOFFILE) by (apply (starts_not _ _ St); apply ty_in_false; reflexivity).
    change (t :: r ++ ts') with ((t :: r) ++ ts'). rewrite IHw; [|exact W1| |len].
    2: { apply follows_full; [|apply Hk; reflexivity]. apply (list_quiet _ _ Hl). apply W2. }
    cbn [elab_list]. destruct (elab_stmt E sc s) as [[q sc1]| | |]; cbn [rbind fst snd with_rest]; try reflexivity.
    rewrite IHl; [reflexivity|exact W2|len].
  - (* a statement and its semicolon *)
    intros ts s c ts' l Hw IHw Hc Hl IHl W sc [|n] Hn; [lia|]. apply tokens_app in W as [W1 W2]. oks.
    destruct (written_starts _ _ _ Hw) as (t & r & -> & St). cbn [app Stmt_Model.statements].
    rewrite (is_false t ENDOFFILE) by (apply (starts_not _ _ St); apply ty_in_false; reflexivity).
    change (t :: r ++ c :: ts') with ((t :: r) ++ c :: ts'). rewrite IHw; [|exact W1|apply semicolon_follows; auto|len].
    cbn [elab_list]. destruct (elab_stmt E sc s) as [[q sc1]| | |]; cbn [rbind fst snd with_rest]; try reflexivity.
    destruct n as [|n]; [len|]. cbn [Stmt_Model.statements]. rewrite (is_false c ENDOFFILE) by congruence.
    destruct n as [|n]; [len|]. cbn [Stmt_Model.statement].
    rewrite (is_false _ BRACKET_CURLY_OPEN), (is_false _ IDENTIFIER), (is_false _ KEYWORD), (is_false _ PARENTHESIS_OPEN), (is_true _ SEMICOLON) by congruence.
    cbn [rbind fst snd]. rewrite IHl; [|assumption|len]. destruct (elab_list E sc1 l); reflexivity.
  - (* cases *)
    intros _ sc has c r [|n] Hc Hn; [lia|]. cbn [app cases]. rewrite is_true by exact Hc. reflexivity.
  - intros t tx x c tb body l ts cs [Kt Kw] Hx Hc Hb _ Hl IHl Hcs IHcs W sc has c' r [|n] Hc' Hn; [lia|]. oks. flatten. cbn [cases].
    rewrite (is_false _ BRACKET_CURLY_CLOSE), (is_true _ KEYWORD Kt), Kw by congruence. eqs. cbn [andb].
    rewrite (expression_reads _ _ _ _ _ Hx); [|auto using made_ok|stp]. cbn [elab_labels]. unfold done at 1.
    destruct (elab_in E sc x); cbn [rbind fst snd]; try reflexivity. rewrite eat_here by exact Hc. cbn [rbind].
    destruct (scope_reads tb body (ts ++ c' :: r) Hb (proj1 (proj2 (proj2 written_nested)) _ _ Hl)) as (Len & b & Hb' & R).
    rewrite R. cbn [rbind fst snd]. rewrite IHl; [|eapply curly_ok; eassumption|len].
    destruct (elab_list E ([] :: sc) l) as [[|q1 ql]| | |]; cbn [rbind fst snd next]; try reflexivity.
    rewrite IHcs; [|assumption|exact Hc'|len]. unfold done. destruct (elab_labels sc has cs) as [[]| | |]; reflexivity.
  - intros t c tb body l ts cs [Kt Kw] Hc Hb _ Hl IHl Hcs IHcs W sc has c' r [|n] Hc' Hn; [lia|]. oks. flatten. cbn [cases].
    rewrite (is_false _ BRACKET_CURLY_CLOSE), (is_true _ KEYWORD Kt), Kw by congruence. eqs. cbn [andb]. cbn [elab_labels].
    destruct has; [reflexivity|]. rewrite eat_here by exact Hc. cbn [rbind].
    destruct (scope_reads tb body (ts ++ c' :: r) Hb (proj1 (proj2 (proj2 written_nested)) _ _ Hl)) as (Len & b & Hb' & R).
    rewrite R. cbn [rbind fst snd]. rewrite IHl; [|eapply curly_ok; eassumption|len].
    destruct (elab_list E ([] :: sc) l) as [[|q1 ql]| | |]; cbn [rbind fst snd next]; try reflexivity.
    rewrite IHcs; [|assumption|exact Hc'|len]. unfold done. destruct (elab_labels sc true cs) as [[]| | |]; reflexivity.
  - (* clauses *)
    intros _ sc has rest [|n] Q Hn; [lia|]. cbn [app]. destruct rest as [|t r]; [reflexivity|]. cbn [clauses]. cbn in Q.
    destruct (str_eqb (k_text t) ($"catch")) eqn:B1; [apply str_eqb_eq in B1; destruct Q; rewrite B1; inl|].
    destruct (str_eqb (k_text t) ($"finally")) eqn:B2; [apply str_eqb_eq in B2; destruct Q; rewrite B2; inl|]. reflexivity.
  - intros t tb body l ts cs [Kw _] Hb _ Hl IHl Hcs IHcs W sc has rest [|n] Q Hn; [lia|]. oks. flatten. cbn [clauses]. rewrite Kw. eqs.
    destruct (scope_reads tb body (ts ++ rest) Hb (proj1 (proj2 (proj2 written_nested)) _ _ Hl)) as (Len & b & Hb' & R).
    assert (catch_decl E ([] :: sc) (tb ++ ts ++ rest) = Ok (None, [] :: sc, tb ++ ts ++ rest)) as ->.
    { destruct Hb as (a & b' & -> & Ha & _). cbn. rewrite (proj2 (ttype_eqb_neq _ _)) by congruence. reflexivity. }
    cbn [rbind fst snd]. rewrite R. cbn [rbind fst snd]. rewrite IHl; [|eapply curly_ok; eassumption|len]. cbn [elab_handlers].
    destruct (elab_list E ([] :: [] :: sc) l); cbn [rbind fst snd next]; try reflexivity.
    rewrite IHcs; [|assumption|exact Q|len]. unfold done. destruct (elab_handlers sc has cs); reflexivity.
  - intros t tp td d tb body l ts cs [Kw _] Hp Hd Hb _ Hl IHl Hcs IHcs W sc has rest [|n] Q Hn; [lia|]. oks. flatten. cbn [clauses]. rewrite Kw. eqs.
    destruct (scope_reads tb body (ts ++ rest) Hb (proj1 (proj2 (proj2 written_nested)) _ _ Hl)) as (Len & b & Hb' & R).
    assert (catch_decl E ([] :: sc) (tp ++ tb ++ ts ++ rest) =
      let! x := elab_decl E false ([] :: sc) d None in Ok (Some (fst x), snd x, tb ++ ts ++ rest)) as ->.
    { destruct Hp as (a & b' & -> & Ha & Hb2). oks. unfold catch_decl. flatten. cbn [here rbind next]. rewrite Ha, ttype_eqb_refl.
      rewrite (decl_reads false _ td d b' _ Hd) by (first [congruence|split; [assumption|rewrite Hb2; inl]]).
      destruct (elab_decl E false ([] :: sc) d None) as [[]| | |]; cbn [rbind fst snd with_rest]; try reflexivity.
      rewrite eat_here by exact Hb2. reflexivity. }
    cbn [elab_handlers]. destruct (elab_decl E false ([] :: sc) d None) as [[qd sc1]| | |]; cbn [rbind fst snd]; try reflexivity.
    rewrite R. cbn [rbind fst snd]. rewrite IHl; [|eapply curly_ok; eassumption|len].
    destruct (elab_list E ([] :: sc1) l); cbn [rbind fst snd next]; try reflexivity.
    rewrite IHcs; [|assumption|exact Q|len]. unfold done. destruct (elab_handlers sc has cs); reflexivity.
  - intros t tb body l ts cs [Kw _] Hb _ Hl IHl Hcs IHcs _ W sc has rest [|n] Q Hn; [lia|]. oks. flatten. cbn [clauses]. rewrite Kw. eqs.
    cbn [elab_handlers]. destruct has; [reflexivity|].
    destruct (scope_reads tb body (ts ++ rest) Hb (proj1 (proj2 (proj2 written_nested)) _ _ Hl)) as (Len & b & Hb' & R).
    rewrite R. cbn [rbind fst snd]. rewrite IHl; [|eapply curly_ok; eassumption|len].
    destruct (elab_list E ([] :: sc) l) as [q| | |]; cbn [rbind fst snd next]; try reflexivity.
    rewrite IHcs; [|assumption|exact Q|len]. unfold done. destruct (elab_handlers sc _ cs); reflexivity.
Qed.
End Reads.
