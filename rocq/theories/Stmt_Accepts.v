(** Every text the reader of statements accepts is one of the lax grammar, and the tree is the one of that text. *)
From Coq Require Import Floats.SpecFloat.
From Verif Require Import Base Base_Proofs Text_Model Tok_Model TypeTable TypeSys_Model Value_Model Parse_Model Parse_Spec
  Parse_Brackets Parse_Complete Parse_Sound Parse_Accepts Parse_Ends Decl_Model Stmt_Model Stmt_Spec Stmt_Proofs.

Ltac rb H x Hx := match type of H with rbind ?e _ = Ok _ => destruct e as [x| | |] eqn:Hx; cbn [rbind fst snd] in H; try discriminate H end.

Section Accepts.
Context (E : senv).
Notation good_all := (Forall good).

Lemma eat_ok ty ts r : eat ty ts = Ok r -> exists t, ts = t :: r /\ k_type t = ty.
Proof.
  unfold eat. intros H. rb H u Hu. apply expect_ok in Hu as (t & r' & -> & Ht). injection H as <-. exists t. auto.
Qed.
Lemma next_ok ts r : next ts = Ok r -> exists t, ts = t :: r.
Proof. destruct ts as [|t ts]; [discriminate|]. intros [= <-]. exists t. reflexivity. Qed.
Lemma here_ok ty ts b : here ty ts = Ok b -> exists t r, ts = t :: r /\ b = ttype_eqb (k_type t) ty.
Proof. destruct ts as [|t ts]; [discriminate|]. intros [= <-]. exists t, ts. auto. Qed.
Lemma is_spec t ty : is t ty = true -> k_type t = ty.
Proof. apply ttype_eqb_spec. Qed.

Lemma level_ok k sc n ts p rest : good_all ts -> parse (inside E sc) n (WLevel k) ts = Ok (p, rest) ->
  exists ts1 x, ts = ts1 ++ rest /\ expr false k ts1 x /\ elab_in E sc x = Ok p.
Proof.
  intros G H. apply accepts in H; [|exact G]. destruct H as (ts1 & e & x & -> & D & EL). exists ts1, x.
  split; [reflexivity|]. split; [exists e; exact D|exact EL].
Qed.
Lemma expression_ok sc ts p rest : good_all ts -> expression E sc ts = Ok (p, rest) ->
  exists ts1 x, ts = ts1 ++ rest /\ expr false 3 ts1 x /\ elab_in E sc x = Ok p.
Proof. apply level_ok. Qed.
Lemma in_parens_ok sc ts p rest : good_all ts -> in_parens E sc ts = Ok (p, rest) ->
  exists ts1 inner x, ts = ts1 ++ rest /\ parens ts1 inner /\ expr false 3 inner x /\ elab_in E sc x = Ok p.
Proof.
  intros G H. unfold in_parens in H. rb H ts1 H1. rb H y Hy. rb H ts2 H2. injection H as <- <-.
  apply eat_ok in H1 as (a & -> & Ha). inversion G; subst. destruct y as [y r]. apply expression_ok in Hy as (tx & x & -> & Hx & EL); [|assumption].
  cbn [fst snd] in *. apply eat_ok in H2 as (b & -> & Hb). exists (a :: tx ++ [b]), tx, x. split; [cbn; rewrite <- app_assoc; reflexivity|].
  split; [exists a, b; auto|]. split; assumption.
Qed.
Lemma opt_ok ty sc ts p rest : good_all ts -> unless ty (expression E sc) ts = Ok (p, rest) ->
  exists ts1 x, ts = ts1 ++ rest /\ opt_expr false ts1 x /\ elab_opt E sc x = Ok p.
Proof.
  intros G H. unfold unless in H. rb H b Hb. destruct b.
  - injection H as <- <-. exists [], None. repeat split.
  - rb H y Hy. injection H as <- <-. destruct y as [y r]. apply expression_ok in Hy as (tx & x & -> & Hx & EL); [|exact G].
    exists tx, (Some x). split; [reflexivity|]. split; [exact Hx|]. cbn. rewrite EL. reflexivity.
Qed.

Lemma mut_ok ts m r : parse_word MUTABILITY to_mutability Modify ts = Ok (m, r) ->
  exists ts1 w, ts = ts1 ++ r /\ word false MUTABILITY ts1 w /\ m = mut_of w.
Proof.
  unfold parse_word. destruct ts as [|t ts]; [discriminate|]. destruct (is t MUTABILITY) eqn:B; intros [= <- <-].
  - exists [t], (Some (k_text t)). split; [reflexivity|]. split; [|reflexivity]. exists t. apply is_spec in B. auto.
  - exists [], None. repeat split.
Qed.
Lemma acc_ok d ts a r : parse_access d ts = Ok (a, r) ->
  exists ts1 w, ts = ts1 ++ r /\ word false ACCESS_MODE ts1 w /\ a = acc_of d w.
Proof.
  unfold parse_access. destruct ts as [|t ts]; [discriminate|]. destruct (_ || _) eqn:B; intros [= <- <-].
  - exists [t], (Some (k_text t)). split; [reflexivity|]. split; [|reflexivity]. exists t. split; [reflexivity|split; [reflexivity|]].
    apply orb_true_iff in B as [B|B]; [left; exact (is_spec _ _ B)|right]. apply str_eqb_eq in B. auto.
  - exists [], None. repeat split.
Qed.
Lemma mut_ok_of w b : mutability_of w = Ok b <-> mut_of w <> MUnknown /\ b = is_const (mut_of w).
Proof.
  destruct w as [w|]; cbn [mutability_of mut_of]; [unfold to_mutability|].
  - destruct (str_eqb w ($"const")); [|destruct (str_eqb w ($"modify"))]; cbn; split; try congruence; try (intros [= <-]); try (split; congruence); intros [? ->]; congruence.
  - cbn. split; [intros [= <-]; split; congruence|intros [_ ->]; reflexivity].
Qed.

Lemma mut_match {A} m (e : res A) tag r : match m with MUnknown => Throw tag | _ => e end = Ok r -> m <> MUnknown /\ e = Ok r.
Proof. destruct m; [discriminate| |]; intros H; split; auto; discriminate. Qed.
Lemma declaration_ok init sc ts q sc' rest : good_all ts -> declaration E init sc ts = Ok (q, sc', rest) ->
  exists ts1 d, named_tokens false ts1 d /\
    ((ts = ts1 ++ rest /\ elab_decl E init sc d None = Ok (q, sc')) \/
     (exists a ts2 x, init = true /\ ts = ts1 ++ a :: ts2 ++ rest /\ k_type a = ASSIGN /\ expr false 3 ts2 x /\
        elab_decl E init sc d (Some x) = Ok (q, sc'))).
Proof.
  intros G H. unfold declaration in H. rb H y Hy. pose proof Hy as Hy'. apply resolve_ok in Hy as (t & r & -> & Hn & Hr).
  destruct y as [k y]. cbn [fst snd] in *. subst y. destruct k as [| |ty at']; try discriminate. rb H u Hu. apply expect_ok in Hu as (x & r' & -> & Hx).
  rb H m Hm. destruct m as [m r2]. apply mut_ok in Hm as (tm & mw & -> & Wm & ->). cbn [fst snd] in H.
  apply mut_match in H as [Hm H]. assert (Hb : mutability_of mw = Ok (is_const (mut_of mw))) by (apply mut_ok_of; auto).
 destruct (pe_type (se_env E) ty) eqn:Et; cbn [negb] in H; [|discriminate].
  rb H sc1 Hsc. rb H a Ha. destruct a as [a r3]. apply acc_ok in Ha as (ta & aw & -> & Wa & ->). cbn [fst snd] in H.
  rb H isA Hass. apply here_ok in Hass as (c & r4 & -> & ->).
  exists (t :: x :: tm ++ ta), (NamedType (k_text t) (k_text x) mw aw). split; [constructor; auto; discriminate|].
  unfold named in Hn. destruct (pe_name (inside E sc) (k_text t)) as [k|] eqn:Hk; [|discriminate]. injection Hn as ->.
  rewrite !reference_cases in H.
  destruct (ttype_eqb (k_type c) ASSIGN) eqn:B.
  - destruct init; cbn [negb] in H; [|discriminate]. cbn [next rbind] in H. rb H y Hy. rb H u2 Hu2. injection H as <- <- <-.
    destruct y as [y r5]. cbn [fst snd] in *.
    assert (G' : good_all r4). { rewrite !app_assoc in G. inversion G; subst. inversion H2; subst. clear -H4. apply Forall_app in H4 as [_ H]. inversion H; assumption. }
    apply expression_ok in Hy as (tx & ex & -> & Hex & EL); [|exact G']. right. exists c, tx, ex. split; [reflexivity|].
    split; [cbn; rewrite <- !app_assoc; reflexivity|]. split; [apply ttype_eqb_spec; exact B|]. split; [exact Hex|].
    rewrite elab_decl_eq, Hk, Hb. cbn [rbind]. rewrite Et. cbn [negb]. rewrite Hsc. cbn [rbind]. rewrite EL. cbn [rbind]. rewrite Hu2. reflexivity.
  - left. destruct (init && _ && _) eqn:B2; [discriminate|]. injection H as <- <- <-. split; [cbn; rewrite <- app_assoc; reflexivity|].
    rewrite elab_decl_eq, Hk, Hb. cbn [rbind]. rewrite Et. cbn [negb]. rewrite Hsc. cbn [rbind]. rewrite B2. reflexivity.
Qed.
Lemma declaration_no_init sc ts q sc' rest : good_all ts -> declaration E false sc ts = Ok (q, sc', rest) ->
  exists ts1 d, named_tokens false ts1 d /\ ts = ts1 ++ rest /\ elab_decl E false sc d None = Ok (q, sc').
Proof.
  intros G H. apply declaration_ok in H as (ts1 & d & Hd & [[H1 H2]|(a & ts2 & x & H1 & _)]); [|discriminate|exact G]. exists ts1, d. auto.
Qed.

(** An assignment behind a name is read to its end. *)
Lemma assign_consumes env n : forall w t u r p rest, shrinks w = true -> k_type t = IDENTIFIER -> k_type u ∈ assign_types ->
  cat_assignment u = true -> parse env n w (t :: u :: r) = Ok (p, rest) -> (length rest <= length r)%nat.
Proof.
  induction n as [|n IH]; intros w t u r p rest W Ht Hu Hc H; [discriminate|].
  assert (Lk : forall w ts q rest, parse env n w ts = Ok (q, rest) -> (length rest <= length ts)%nat)
    by (intros w' ts' q' r' L; apply rest_length in L; destruct (shrinks w'); lia).
  destruct w; try discriminate W; cbn [parse] in H.
  - rb H y Hy. destruct y as [y r1]. cbn [fst snd] in H. apply Lk in H. destruct k; apply IH in Hy; auto; lia.
  - rb H y Hy. destruct y as [y r1]. cbn [fst snd] in H. apply Lk in H. rewrite Ht in Hy. cbn in Hy. apply IH in Hy; auto. lia.
  - rewrite Ht in H. cbn [literal ttype_eqb] in H. rewrite ttype_eqb_refl in H. rb H y Hy.
    apply resolve_ok in Hy as (a & b & Hab & _ & Hs). injection Hab as <- <-. rewrite Hs in H.
    destruct n as [|n]; [discriminate|]. cbn [parse] in H.
    assert (B : cat_constant u || ttype_eqb (k_type u) IDENTIFIER || ttype_eqb (k_type u) KEYWORD = false).
    { unfold cat_constant. unfold cat_assignment in Hc. destruct (k_cat u); try discriminate Hc. cbn [orb].
      repeat (apply elem_of_cons in Hu as [->|Hu]; [reflexivity|]). inversion Hu. }
    rewrite B, Hc in H. rb H z Hz. rb H e He. injection H as <- <-. destruct z as [z r1]. cbn [snd].
    apply rest_length in Hz. cbn [shrinks] in Hz. lia.
Qed.

Lemma inference_ok sc ts q sc' rest : good_all ts -> inference E sc ts = Ok (q, sc', rest) ->
  exists n m a c ts1 mw aw x, ts = n :: m ++ a ++ c :: ts1 ++ rest /\ k_type n = IDENTIFIER /\ word false MUTABILITY m mw /\
    word false ACCESS_MODE a aw /\ k_type c = ASSIGN /\ expr false 3 ts1 x /\ elab_var E sc (k_text n) mw aw x = Ok (q, sc').
Proof.
  intros G H. unfold inference in H. rb H u Hu. apply expect_ok in Hu as (n & r & -> & Hn). rb H m Hm. destruct m as [m r2].
  apply mut_ok in Hm as (tm & mw & -> & Wm & ->). cbn [fst snd] in H. apply mut_match in H as [Hm H].
  assert (Hb : mutability_of mw = Ok (is_const (mut_of mw))) by (apply mut_ok_of; auto).
  rb H a Ha. destruct a as [a r3]. apply acc_ok in Ha as (ta & aw & -> & Wa & ->). cbn [fst snd] in H.
  rb H ts1 H1. apply eat_ok in H1 as (c & -> & Hc). rb H y Hy. destruct y as [y r4]. cbn [fst snd] in H.
  apply expression_ok in Hy as (tx & x & -> & Hx & EL).
  2:{ inversion G; subst. apply Forall_app in H3 as [_ H3]. apply Forall_app in H3 as [_ H3]. inversion H3; assumption. }
  destruct (pe_type _ _) eqn:Et; cbn [negb] in H; [|discriminate]. rb H sc1 Hsc. injection H as <- <- <-.
  exists n, tm, ta, c, tx, mw, aw, x. repeat (split; [assumption || reflexivity|]). unfold elab_var. change declare_name with define_local. rewrite Hb. cbn [rbind]. rewrite EL.
  cbn [rbind]. rewrite Et. cbn [negb]. rewrite Hsc. cbn [rbind]. f_equal. f_equal. f_equal.
  symmetry. exact (reference_cases true aw).
Qed.

Lemma scope_ok ts body rest : collect_scope ts = Ok (body, rest) ->
  exists c r tb, rest = c :: r /\ ts = tb ++ r /\ curly tb body /\ nested_curly body.
Proof.
  intros H. apply collect_scope_iff in H as (o & c & r & -> & -> & Ho & Hc & Hn). exists c, r, (o :: body ++ [c]).
  split; [reflexivity|]. split; [cbn; rewrite <- app_assoc; reflexivity|]. split; [exists o, c; auto|]. exact Hn.
Qed.

Definition ok_stmt (n : nat) : Prop := forall sc ts q sc' rest, good_all ts -> statement E n sc ts = Ok (q, sc', rest) ->
  exists k ts1 s, ts = ts1 ++ rest /\ ts1 <> [] /\ written false k ts1 s /\ elab_stmt E sc s = Ok (q, sc').
Definition ok_list (n : nat) : Prop := forall sc ts l, good_all ts -> statements E n sc ts = Ok l ->
  exists l', written_list false ts l' /\ elab_list E sc l' = Ok l.
Definition ok_cases (n : nat) : Prop := forall sc has ts cs d rest, good_all ts -> cases E n sc has ts = Ok (cs, d, rest) ->
  exists ts1 l, ts = ts1 ++ rest /\ written_cases false ts1 l /\ elab_labels E sc has l = Ok (cs, d).
Definition ok_clauses (n : nat) : Prop := forall sc has ts cs rest, good_all ts -> clauses E n sc has ts = Ok (cs, rest) ->
  exists ts1 l, ts = ts1 ++ rest /\ written_clauses false ts1 l /\ elab_handlers E sc has l = Ok cs.

Ltac lax := let H := fresh in intros H; discriminate H.
Lemma good_cons t r : good_all (t :: r) -> good t /\ good_all r.
Proof. intros H. inversion H. auto. Qed.
Lemma good_app a b : good_all (a ++ b) -> good_all a /\ good_all b.
Proof. apply Forall_app. Qed.
Lemma good_curly tb body r : good_all (tb ++ r) -> curly tb body -> good_all body /\ good_all r.
Proof. intros H (o & c & -> & _). apply Forall_app in H as [H H2]. inversion H; subst. apply Forall_app in H4. tauto. Qed.

Lemma clauses_step n : ok_list n -> ok_clauses n -> ok_clauses (S n).
Proof.
  intros IL IC sc has ts cs rest G H. cbn [clauses] in H. destruct ts as [|t r].
  { injection H as <- <-. exists [], []. split; [reflexivity|]. split; [constructor|reflexivity]. }
  inversion G as [|? ? Gt Gr]; subst. destruct (str_eqb (k_text t) ($"catch")) eqn:Ec; [|destruct (str_eqb (k_text t) ($"finally")) eqn:Ef].
  - apply str_eqb_eq in Ec. rb H d Hd. destruct d as [[d sc1] r1]. cbn [fst snd] in H. rb H b Hb. rb H c Hc. injection H as <- <-. destruct c as [c rc].
    rb Hb bb Hbb. destruct bb as [body rb']. cbn [fst snd] in Hb. apply scope_ok in Hbb as (cc & r2 & tb & -> & -> & Cb & Nb).
    rb Hb l Hl. cbn [next rbind snd] in Hb. injection Hb as <-. cbn [fst snd] in *.
    unfold catch_decl in Hd. rb Hd p Hp. destruct p.
    + apply here_ok in Hp as (a & ra & -> & Ha). cbn [next rbind] in Hd. rb Hd y Hy. destruct y as [[y sc2] ry]. rb Hd ts2 H2. cbn [fst snd] in *.
      injection Hd as E1 E2 E3. subst d sc1 ts2. apply good_cons in Gr as [_ Gr]. apply declaration_no_init in Hy as (td & nt & Wd & -> & EL); [|assumption].
      apply eat_ok in H2 as (c2 & -> & Hc2). apply good_app in Gr as [Gtd Gy]. apply good_cons in Gy as [_ Gy].
      destruct (good_curly _ _ _ Gy Cb) as [Gb G2]. apply IL in Hl as (l' & Wl & El); [|exact Gb]. apply IC in Hc as (tc & lc & -> & Wc & Ecs); [|exact G2].
      exists (t :: (a :: td ++ [c2]) ++ tb ++ tc), ((Some (Some nt), l') :: lc). split; [cbn; rewrite <- !app_assoc; cbn; rewrite <- ?app_assoc; reflexivity|].
      split.
      * apply (wk_catch false t _ td nt tb body l' tc lc); auto; [split; [exact Ec|lax]|]. exists a, c2. split; [reflexivity|]. split; [|exact Hc2].
        symmetry in Ha. apply ttype_eqb_spec in Ha. exact Ha.
      * cbn [elab_handlers]. rewrite EL. cbn [rbind fst snd]. rewrite El. cbn [rbind]. rewrite Ecs. reflexivity.
    + injection Hd as E1 E2 E3. subst d sc1 r. destruct (good_curly _ _ _ Gr Cb) as [Gb G2]. apply IL in Hl as (l' & Wl & El); [|exact Gb].
      apply IC in Hc as (tc & lc & -> & Wc & Ecs); [|exact G2]. exists (t :: tb ++ tc), ((Some None, l') :: lc).
      split; [cbn; rewrite <- !app_assoc; reflexivity|]. split.
      * apply (wk_catch_all false t tb body l' tc lc); auto. split; [exact Ec|lax].
      * cbn [elab_handlers]. rewrite El. cbn [rbind]. rewrite Ecs. reflexivity.
  - apply str_eqb_eq in Ef. destruct has; [discriminate|]. rb H b Hb. rb H c Hc. injection H as <- <-. destruct c as [c rc].
    rb Hb bb Hbb. destruct bb as [body rb']. cbn [fst snd] in Hb. apply scope_ok in Hbb as (cc & r2 & tb & -> & -> & Cb & Nb).
    rb Hb l Hl. cbn [next rbind snd] in Hb. injection Hb as <-. cbn [fst snd] in *.
    destruct (good_curly _ _ _ Gr Cb) as [Gb G2]. apply IL in Hl as (l' & Wl & El); [|exact Gb].
    apply IC in Hc as (tc & lc & -> & Wc & Ecs); [|exact G2]. exists (t :: tb ++ tc), ((None, l') :: lc).
    split; [cbn; rewrite <- !app_assoc; reflexivity|]. split.
    + apply (wk_finally false t tb body l' tc lc); auto; [split; [exact Ef|lax]|lax].
    + cbn [elab_handlers]. rewrite El. cbn [rbind]. rewrite Ecs. reflexivity.
  - injection H as <- <-. exists [], []. split; [reflexivity|]. split; [constructor|reflexivity].
Qed.

Lemma cases_step n : ok_list n -> ok_cases n -> ok_cases (S n).
Proof.
  intros IL IC sc has ts cs d rest G H. cbn [cases] in H. destruct ts as [|t r]; [discriminate|].
  inversion G as [|? ? Gt Gr]; subst. destruct (is t BRACKET_CURLY_CLOSE).
  { injection H as <- <- <-. exists [], []. split; [reflexivity|]. split; [constructor|reflexivity]. }
  destruct (is t KEYWORD) eqn:Ek; [|discriminate]. apply is_spec in Ek. cbn [andb] in H.
  destruct (str_eqb (k_text t) ($"case")) eqn:Ec; [|destruct (str_eqb (k_text t) ($"default")) eqn:Ef; [|discriminate]].
  - apply str_eqb_eq in Ec. rb H x Hx. destruct x as [x rx]. cbn [fst snd] in H. rb H ts1 H1. rb H b Hb. rb H c Hc. injection H as <- <- <-.
    destruct c as [[c dc] rc]. cbn [fst snd] in *. apply expression_ok in Hx as (tx & ex & -> & Wx & Ex); [|exact Gr]. apply good_app in Gr as [Gx Gr].
    apply eat_ok in H1 as (col & -> & Hcol). apply good_cons in Gr as [_ Gr].
    rb Hb bb Hbb. destruct bb as [body rb']. cbn [fst snd] in Hb. apply scope_ok in Hbb as (cc & r2 & tb & -> & -> & Cb & Nb).
    rb Hb l Hl. assert (Nl : l <> []) by (intros ->; discriminate Hb).
    assert (Hb' : b = (l, r2)) by (destruct l; [discriminate|]; cbn [next rbind snd] in Hb; injection Hb as <-; reflexivity). subst b. cbn [fst snd] in *.
    destruct (good_curly _ _ _ Gr Cb) as [Gb G2]. apply IL in Hl as (l' & Wl & El); [|exact Gb].
    apply IC in Hc as (tc & lc & -> & Wc & Ecs); [|exact G2]. exists (t :: tx ++ col :: tb ++ tc), ((Some ex, l') :: lc).
    split; [cbn; rewrite <- !app_assoc; cbn; rewrite <- !app_assoc; reflexivity|]. split.
    + apply (wc_case false t tx ex col tb body l' tc lc); auto. split; assumption.
    + cbn [elab_labels]. rewrite Ex. cbn [rbind]. rewrite El. cbn [rbind]. destruct l; [congruence|]. rewrite Ecs. reflexivity.
  - apply str_eqb_eq in Ef. destruct has; [discriminate|]. rb H ts1 H1. rb H b Hb. rb H c Hc. injection H as <- <- <-.
    destruct c as [[c dc] rc]. cbn [fst snd] in *. 
    apply eat_ok in H1 as (col & -> & Hcol). apply good_cons in Gr as [_ Gr].
    rb Hb bb Hbb. destruct bb as [body rb']. cbn [fst snd] in Hb. apply scope_ok in Hbb as (cc & r2 & tb & -> & -> & Cb & Nb).
    rb Hb l Hl. assert (Nl : l <> []) by (intros ->; discriminate Hb).
    assert (Hb' : b = (l, r2)) by (destruct l; [discriminate|]; cbn [next rbind snd] in Hb; injection Hb as <-; reflexivity). subst b. cbn [fst snd] in *.
    destruct (good_curly _ _ _ Gr Cb) as [Gb G2]. apply IL in Hl as (l' & Wl & El); [|exact Gb].
    apply IC in Hc as (tc & lc & -> & Wc & Ecs); [|exact G2]. exists (t :: col :: tb ++ tc), ((None, l') :: lc).
    split; [cbn; rewrite <- !app_assoc; reflexivity|]. split.
    + apply (wc_default false t col tb body l' tc lc); auto. split; assumption.
    + cbn [elab_labels]. rewrite El. cbn [rbind]. destruct l; [congruence|]. rewrite Ecs. reflexivity.
Qed.

Lemma list_step n : ok_stmt n -> ok_list n -> ok_list (S n).
Proof.
  intros IS IL sc ts l G H. cbn [statements] in H. destruct ts as [|t r].
  { injection H as <-. exists []. split; [constructor|reflexivity]. }
  destruct (is t ENDOFFILE) eqn:Ee.
  { injection H as <-. exists []. split; [apply wl_end; [reflexivity|apply is_spec; exact Ee]|reflexivity]. }
  rb H x Hx. destruct x as [[q sc1] r1]. cbn [fst snd] in H. rb H l1 Hl. injection H as <-. apply IS in Hx as (k & ts1 & s & Ets & _ & W & EL); [|exact G].
  rewrite Ets in G. apply good_app in G as [G1 G2]. apply IL in Hl as (l' & Wl & El); [|exact G2]. exists (s :: l'). split.
  - rewrite Ets. apply wl_full with k; auto.
  - cbn [elab_list]. rewrite EL. cbn [rbind fst snd]. rewrite El. reflexivity.
Qed.

(** What the functions without statements inside accept. *)
Definition ok_node (t : token) (r : list token) (sc : scopes) (q : pstmt) (sc' : scopes) (rest : list token) : Prop :=
  exists k ts1 s, r = ts1 ++ rest /\ written false k (t :: ts1) s /\ elab_stmt E sc s = Ok (Some q, sc').

Lemma flat_ok t sc r f q sc' rest : k_type t = KEYWORD -> good_all r -> flat E sc (k_text t) r = Some f -> f = Ok (q, sc', rest) ->
  ok_node t r sc q sc' rest.
Proof.
  intros Kt G F H. unfold flat in F. cbv zeta in F. unfold ok_node.
  repeat match type of F with (if str_eqb ?a ?b then _ else _) = _ => let B := fresh "B" in destruct (str_eqb a b) eqn:B;
    [apply str_eqb_eq in B; injection F as <-; try clear F|] end; [..|discriminate F].
  - rb H ts1 H1. rb H x Hx. rb H c Hc. rb H y Hy. rb H ts3 H3. injection H as E1 E2 E3. subst q sc' ts3. destruct x as [x rx]. cbn [fst snd] in *.
    apply eat_ok in H1 as (o & -> & Ho). apply good_cons in G as [_ G]. apply expression_ok in Hx as (tx & ex & -> & Wx & Ex); [|exact G].
    apply good_app in G as [_ G]. destruct c.
    + apply here_ok in Hc as (c & rc & -> & Hc). cbn [next rbind] in Hy. rb Hy m Hm. injection Hy as <-. destruct m as [m rm]. cbn [fst snd] in *.
      apply good_cons in G as [_ G]. apply expression_ok in Hm as (tm & em & -> & Wm & Em); [|exact G]. apply eat_ok in H3 as (p & -> & Hp).
      exists Semi, (o :: (tx ++ c :: tm) ++ [p]), (YAssert ex (Some em)). split; [cbn; repeat (rewrite <- !app_assoc; cbn); reflexivity|]. split.
      * eapply w_assert_message; eauto; [split; assumption|exists o, p; auto|]. symmetry in Hc. apply ttype_eqb_spec in Hc. exact Hc.
      * cbn [elab_stmt node_of]. unfold node_of. rewrite Ex. cbn [rbind elab_opt]. rewrite Em. reflexivity.
    + injection Hy as <-. cbn [fst snd] in *. apply eat_ok in H3 as (p & -> & Hp).
      exists Semi, (o :: tx ++ [p]), (YAssert ex None). split; [cbn; rewrite <- !app_assoc; reflexivity|]. split.
      * eapply w_assert; eauto; [split; assumption|exists o, p; auto].
      * cbn [elab_stmt]. unfold node_of. rewrite Ex. reflexivity.
  - cbn [rbind fst snd] in H. rb H ts1 H1. injection H as <- <- <-. apply eat_ok in H1 as (c & -> & Hc). exists Full, [c], YBreak.
    split; [reflexivity|]. split; [constructor; [split|]; assumption|reflexivity].
  - cbn [rbind fst snd] in H. rb H ts1 H1. injection H as <- <- <-. apply eat_ok in H1 as (c & -> & Hc). exists Full, [c], YContinue.
    split; [reflexivity|]. split; [constructor; [split|]; assumption|reflexivity].
  - rb H y Hy. rb H ts1 H1. injection H as <- <- <-. rb Hy x Hx. injection Hy as <-. destruct x as [x rx]. cbn [fst snd] in *.
    apply expression_ok in Hx as (tx & ex & -> & Wx & Ex); [|exact G]. apply eat_ok in H1 as (c & -> & Hc). exists Full, (tx ++ [c]), (YDelete ex).
    split; [rewrite <- app_assoc; reflexivity|]. split; [constructor; [split|..]; assumption|]. cbn [elab_stmt]. unfold node_of. rewrite Ex. reflexivity.
  - rb H y Hy. rb H ts1 H1. injection H as <- <- <-. rb Hy x Hx. injection Hy as <-. destruct x as [x rx]. cbn [fst snd] in *.
    apply in_parens_ok in Hx as (tx & inner & ex & -> & Wp & Wx & Ex); [|exact G]. apply eat_ok in H1 as (c & -> & Hc). exists Full, (tx ++ [c]), (YExit ex).
    split; [rewrite <- app_assoc; reflexivity|]. split; [eapply w_exit; [split|..]; eassumption|]. cbn [elab_stmt]. unfold node_of. rewrite Ex. reflexivity.
  - rb H y Hy. rb H ts1 H1. injection H as <- <- <-. rb Hy x Hx. injection Hy as <-. destruct x as [x rx]. cbn [fst snd] in *.
    apply in_parens_ok in Hx as (tx & inner & ex & -> & Wp & Wx & Ex); [|exact G]. apply eat_ok in H1 as (c & -> & Hc). exists Full, (tx ++ [c]), (YPrint ex).
    split; [rewrite <- app_assoc; reflexivity|]. split; [eapply w_print; [split|..]; eassumption|]. cbn [elab_stmt]. unfold node_of. rewrite Ex. reflexivity.
  - rb H y Hy. rb H ts1 H1. injection H as <- <- <-. rb Hy x Hx. injection Hy as <-. destruct x as [x rx]. cbn [fst snd] in *.
    apply opt_ok in Hx as (tx & ex & -> & Wx & Ex); [|exact G]. apply eat_ok in H1 as (c & -> & Hc). exists Full, (tx ++ [c]), (YReturn ex).
    split; [rewrite <- app_assoc; reflexivity|]. split; [constructor; [split|..]; assumption|]. cbn [elab_stmt]. unfold node_of. rewrite Ex. reflexivity.
  - rb H y Hy. rb H ts1 H1. injection H as <- <- <-. rb Hy x Hx. injection Hy as <-. destruct x as [x rx]. cbn [fst snd] in *.
    apply opt_ok in Hx as (tx & ex & -> & Wx & Ex); [|exact G]. apply eat_ok in H1 as (c & -> & Hc). exists Full, (tx ++ [c]), (YThrow ex).
    split; [rewrite <- app_assoc; reflexivity|]. split; [constructor; [split|..]; assumption|]. cbn [elab_stmt]. unfold node_of. rewrite Ex. reflexivity.
  - apply inference_ok in H as (n & m & a & c & ts1 & mw & aw & x & -> & Hn & Wm & Wa & Hc & Wx & Ev); [|exact G].
    exists Semi, (n :: m ++ a ++ c :: ts1), (YVar (k_text n) mw aw x). split; [cbn; repeat (rewrite <- !app_assoc; cbn); reflexivity|].
    split; [constructor; auto; split; assumption|]. cbn [elab_stmt]. unfold here_too. rewrite Ev. reflexivity.
Qed.

Lemma node_ok t r sc q sc' rest : ok_node t r sc q sc' rest ->
  exists k ts1 s, t :: r = ts1 ++ rest /\ ts1 <> [] /\ written false k ts1 s /\ elab_stmt E sc s = Ok (Some q, sc').
Proof. intros (k & ts1 & s & -> & W & EL). exists k, (t :: ts1), s. repeat split; auto. Qed.

Lemma assignment_ok sc t u r q sc' rest : good_all (t :: u :: r) -> k_type t = IDENTIFIER -> cat_assignment u = true ->
  assignment E sc (t :: u :: r) = Ok (q, sc', rest) -> ok_node t (u :: r) sc q sc' rest.
Proof.
  intros G Ht Hu H. unfold assignment in H. rb H x Hx. injection H as E1 E2 E3. subst sc' rest. destruct x as [x rx]. cbn [fst snd] in *.
  assert (U : k_type u ∈ assign_types).
  { apply good_cons in G as [_ G]. apply good_cons in G as [[M _] _]. rewrite (made_assign _ M) in Hu. apply ty_in_spec. exact Hu. }
  assert (L : (length rx <= length r)%nat) by (eapply (assign_consumes _ _ (WLevel 3)); eauto).
  apply expression_ok in Hx as (tx & ex & Et & Wx & Ex); [|exact G].
  destruct tx as [|t' [|u' tx]].
  - apply (f_equal length) in Et. cbn in Et. lia.
  - apply (f_equal length) in Et. cbn in Et. lia.
  - injection Et as <- <- Er. exists Semi, (u :: tx), (YAssign ex). split; [cbn; rewrite Er; reflexivity|]. split; [constructor; assumption|].
    cbn [elab_stmt]. unfold node_of. rewrite Ex. cbn [rbind]. subst q. destruct x; reflexivity.
Qed.

Lemma identifier_ok sc t r q sc' rest : good_all (t :: r) -> k_type t = IDENTIFIER ->
  identifier E sc (t :: r) = Ok (q, sc', rest) -> ok_node t r sc q sc' rest.
Proof.
  intros G Ht H. unfold identifier in H. rb H x Hx. apply resolve_ok in Hx as (t' & r' & Er & Hn & Hs). injection Er as <- <-.
  destruct x as [k r']. cbn [fst snd] in *. subst r'. destruct r as [|u r]; [discriminate|].
  destruct (ttype_eqb (k_type u) IDENTIFIER) eqn:Bi; [|destruct (_ || _) eqn:Bc].
  - apply declaration_ok in H as (ts1 & d & Wd & [[E1 EL]|(a & ts2 & x & _ & E1 & Ha & Wx & EL)]); [..|exact G].
    + inversion Wd; subst. injection E1 as <- <- ->. exists Semi, (u :: m ++ a), (YDecl (NamedType (k_text t) (k_text u) mw aw) None).
      split; [reflexivity|]. split; [constructor; exact Wd|]. cbn [elab_stmt]. unfold here_too. rewrite EL. reflexivity.
    + inversion Wd; subst. cbn in E1. injection E1 as <- <- ->. exists Semi, ((u :: m ++ a0) ++ a :: ts2), (YDecl (NamedType (k_text t) (k_text u) mw aw) (Some x)).
      split; [cbn; rewrite <- !app_assoc; reflexivity|]. split; [exact (w_init false _ _ _ _ _ Wd Ha Wx)|]. cbn [elab_stmt]. unfold here_too. rewrite EL. reflexivity.
  - injection H as <- <- <-. exists Semi, [], (YExpr (XName (k_text t))). split; [reflexivity|]. split.
    + eapply w_effect; [exact Ht| |lax]. apply d_name. exact Ht.
    + cbn [elab_stmt]. unfold node_of, elab_in. change (names_inside E) with (inside E). cbn [elab]. rewrite Hn. reflexivity.
  - rb H y Hy. injection H as <- <- <-. destruct y as [y ry]. cbn [fst snd]. apply good_cons in G as [_ G]. apply accepts in Hy; [|exact G].
    specialize (Hy t Ht eq_refl Hn). destruct Hy as (ts1 & e & x & Er & D & EL). exists Semi, ts1, (YExpr x). split; [exact Er|].
    split; [eapply w_effect; [exact Ht|exact D|lax]|]. cbn [elab_stmt]. unfold node_of, elab_in. change (names_inside E) with (inside E). rewrite EL. reflexivity.
Qed.

Ltac found K T Y := exists K, T, Y; split; [cbn [app]; repeat (rewrite <- !app_assoc; cbn [app]); reflexivity|]; split; [discriminate|].
Lemma stmt_step n : ok_stmt n -> ok_list n -> ok_cases n -> ok_clauses n -> ok_stmt (S n).
Proof.
  intros IS IL IC IK sc ts q sc' rest G H. cbn [statement] in H. destruct ts as [|t r]; [discriminate|].
  destruct (is t BRACKET_CURLY_OPEN) eqn:B1.
  { rb H b Hb. rb H ts1 H1. injection H as E1 E2 E3. subst q sc' ts1. rb Hb bb Hbb. destruct bb as [body rb']. cbn [fst snd] in Hb.
    apply scope_ok in Hbb as (cc & r2 & tb & -> & Etb & Cb & Nb). rb Hb l Hl. injection Hb as <-. cbn [fst snd] in *.
    injection H1 as <-. rewrite Etb in G. destruct (good_curly _ _ _ G Cb) as [Gb G2]. apply IL in Hl as (l' & Wl & El); [|exact Gb].
    exists Full, tb, (YBlock l'). split; [exact Etb|]. split; [destruct Cb as (? & ? & -> & _); discriminate|].
    split; [eapply w_block; eauto|]. rewrite elab_block, El. reflexivity. }
  clear B1. destruct (is t IDENTIFIER) eqn:B2.
  { apply is_spec in B2. destruct r as [|u r]; [discriminate|]. rb H x Hx. injection H as E1 E2 E3. subst q sc' rest.
    destruct x as [[x sc1] rx]. cbn [fst snd]. apply node_ok. destruct (cat_assignment u) eqn:Bu; [apply assignment_ok|apply identifier_ok]; assumption. }
  clear B2. destruct (is t KEYWORD) eqn:B3.
  2:{ destruct (is t PARENTHESIS_OPEN) eqn:B4.
    - rb H x Hx. injection H as E1 E2 E3. subst q sc' rest. destruct x as [x rx]. cbn [fst snd].
      pose proof (rest_length _ _ (WLevel 3) _ _ _ Hx) as Hl. cbn [shrinks] in Hl.
      apply expression_ok in Hx as (tx & ex & Et & Wx & Ex); [|exact G].
      destruct tx as [|o tx]; [cbn [app] in Et; rewrite <- Et in Hl; lia|].
      injection Et as <- ->. found Semi (t :: tx) (YExpr ex). split; [apply w_paren; [apply is_spec; exact B4|exact Wx]|].
      cbn [elab_stmt]. unfold node_of. rewrite Ex. reflexivity.
    - destruct (is t SEMICOLON) eqn:B5; [|discriminate]. injection H as <- <- <-. found Full [t] YEmpty.
      split; [constructor; apply is_spec; exact B5|reflexivity]. }
  apply is_spec in B3. apply good_cons in G as [_ G]. destruct (flat E sc (k_text t) r) as [f|] eqn:F.
  { rb H x Hx. injection H as E1 E2 E3. subst q sc' rest. destruct x as [[x sc1] rx]. cbn [fst snd]. apply node_ok. eapply flat_ok; eauto. }
  clear F. cbv zeta in H.
  destruct (str_eqb (k_text t) ($"for")) eqn:W1; [apply str_eqb_eq in W1|clear W1].
  { rb H ts1 H1. apply eat_ok in H1 as (o & -> & Ho). apply good_cons in G as [_ G]. rb H none Hnone. rb H i Hi. destruct i as [[i sci] ri]. cbn [fst snd] in H.
    rb H ts2 H2. apply next_ok in H2 as [s1 ->]. rb H c Hc. destruct c as [c rc]. cbn [fst snd] in H. rb H ts3 H3. apply next_ok in H3 as [s2 ->].
    rb H none2 Hnone2. rb H it Hit. destruct it as [[it sct] rt]. cbn [fst snd] in H. rb H ts4 H4. apply next_ok in H4 as [p ->]. rb H b Hb.
    destruct b as [[b scb] rb']. cbn [fst snd] in H. injection H as <- <- <-.
    assert (Pi : exists ti oi, ts1 = ti ++ s1 :: ts2 /\ written_opt false ti oi /\
      (match oi with Some i => elab_stmt E ([] :: sc) i | None => Ok (None, [] :: sc) end) = Ok (i, sci)).
    { destruct none; [injection Hi as <- <- <-; exists [], None; repeat split; constructor|].
      apply IS in Hi as (k & ti & si & -> & _ & W & EL); [|exact G]. exists ti, (Some si). split; [reflexivity|]. split; [econstructor; [exact W|lax]|exact EL]. }
    destruct Pi as (ti & oi & -> & Wi & Ei). apply good_app in G as [_ G]. apply good_cons in G as [_ G].
    apply opt_ok in Hc as (tc & oc & -> & Wc & Ec); [|exact G]. apply good_app in G as [_ G]. apply good_cons in G as [_ G].
    assert (Pu : exists tu ou, ts3 = tu ++ p :: ts4 /\ written_opt false tu ou /\
      (match ou with Some i => elab_stmt E sci i | None => Ok (None, sci) end) = Ok (it, sct)).
    { destruct none2; [injection Hit as <- <- <-; exists [], None; repeat split; constructor|].
      apply IS in Hit as (k & tu & su & -> & _ & W & EL); [|exact G]. exists tu, (Some su). split; [reflexivity|]. split; [econstructor; [exact W|lax]|exact EL]. }
    destruct Pu as (tu & ou & -> & Wu & Eu). apply good_app in G as [_ G]. apply good_cons in G as [_ G].
    apply IS in Hb as (k & tb & sb & -> & _ & Wb & Eb); [|exact G].
    found k (t :: o :: ti ++ s1 :: tc ++ s2 :: tu ++ p :: tb) (YFor oi oc ou sb).
    split; [constructor; auto; [split; assumption|lax]|]. cbn [elab_stmt]. rewrite Ei. cbn [rbind fst snd]. rewrite Ec. cbn [rbind].
    destruct ou; [rewrite Eu|injection Eu as <- <-]; cbn [rbind fst snd]; rewrite Eb; reflexivity. }
  destruct (str_eqb (k_text t) ($"foreach")) eqn:W1; [apply str_eqb_eq in W1|clear W1].
  { rb H ts1 H1. apply eat_ok in H1 as (o & -> & Ho). apply good_cons in G as [_ G]. rb H d Hd. destruct d as [[d scd] rd]. cbn [fst snd] in H.
    apply declaration_no_init in Hd as (td & nt & Wd & -> & Ed); [|exact G]. apply good_app in G as [_ G].
    rb H ts2 H2. apply eat_ok in H2 as (c & -> & Hc). apply good_cons in G as [_ G]. rb H x Hx. destruct x as [x rx]. cbn [fst snd] in H.
    apply level_ok in Hx as (tx & ex & -> & Wx & Ex); [|exact G]. apply good_app in G as [_ G]. rb H u Hu. rb H ts3 H3.
    apply eat_ok in H3 as (p & -> & Hp). apply good_cons in G as [_ G]. rb H b Hb. destruct b as [[b scb] rb']. cbn [fst snd] in H. injection H as <- <- <-.
    apply IS in Hb as (k & tb & sb & -> & _ & Wb & Eb); [|exact G].
    found k (t :: o :: td ++ c :: tx ++ p :: tb) (YForeach nt ex sb). split; [apply w_foreach; auto; split; assumption|].
    cbn [elab_stmt]. rewrite Ed. cbn [rbind fst snd]. rewrite Ex. cbn [rbind]. rewrite Hu. cbn [rbind]. rewrite Eb. reflexivity. }
  destruct (str_eqb (k_text t) ($"if")) eqn:W1; [apply str_eqb_eq in W1|clear W1].
  { rb H x Hx. destruct x as [x rx]. cbn [fst snd] in H. apply in_parens_ok in Hx as (tx & inner & ex & -> & Wp & Wx & Ex); [|exact G].
    apply good_app in G as [_ G]. rb H a Ha. destruct a as [[a sca] ra]. cbn [fst snd] in H. apply IS in Ha as (ka & ta & sa & -> & _ & Wa & Ea); [|exact G].
    apply good_app in G as [_ G]. rb H b Hb. destruct b as [[b scb] rb']. cbn [fst snd] in H. injection H as <- <- <-.
    assert (P : (b = None /\ scb = sca /\ rb' = ra) \/
      exists u r1, ra = u :: r1 /\ keyword u ($"else") /\ statement E n sca r1 = Ok (b, scb, rb')).
    { destruct ra as [|u r1]; [injection Hb as <- <- <-; auto|]. destruct (is u KEYWORD && str_eqb (k_text u) ($"else")) eqn:Bu; [|injection Hb as <- <- <-; auto].
      apply andb_true_iff in Bu as [Bu1 Bu2]. apply is_spec in Bu1. apply str_eqb_eq in Bu2. right. exists u, r1. repeat split; assumption. }
    destruct P as [(-> & -> & ->)|(u & r1 & -> & Ku & Hb')].
    - eexists _, (t :: tx ++ ta), (YIf ex sa None). split; [cbn [app]; rewrite <- !app_assoc; reflexivity|]. split; [discriminate|].
      split; [eapply w_if; eauto; split; assumption|]. cbn [elab_stmt]. rewrite Ex. cbn [rbind]. rewrite Ea. reflexivity.
    - apply good_cons in G as [_ G]. apply IS in Hb' as (k & tb & sb & -> & _ & Wb & Eb); [|exact G].
      found k (t :: tx ++ ta ++ u :: tb) (YIf ex sa (Some sb)). split; [eapply w_else; eauto; [split; assumption|lax]|].
      cbn [elab_stmt]. rewrite Ex. cbn [rbind]. rewrite Ea. cbn [rbind fst snd]. rewrite Eb. reflexivity. }
  destruct (str_eqb (k_text t) ($"switch")) eqn:W1; [apply str_eqb_eq in W1|clear W1].
  { rb H x Hx. destruct x as [x rx]. cbn [fst snd] in H. apply in_parens_ok in Hx as (tx & inner & ex & -> & Wp & Wx & Ex); [|exact G].
    apply good_app in G as [_ G]. rb H ts1 H1. apply eat_ok in H1 as (o & -> & Ho). apply good_cons in G as [_ G]. rb H c Hc. destruct c as [[cs d] rc]. cbn [fst snd] in H.
    apply IC in Hc as (tc & lc & -> & Wc & Ec); [|exact G]. destruct (pe_type _ _) eqn:Bt; cbn [negb] in H; [|discriminate].
    rb H ts2 H2. apply eat_ok in H2 as (p & -> & Hp). injection H as <- <- <-.
    found Full (t :: tx ++ o :: tc ++ [p]) (YSwitch ex lc). split.
    - eapply w_switch; eauto; [split; assumption|]. exists o, p. auto.
    - rewrite elab_switch, Ex. cbn [rbind]. rewrite Ec. cbn [rbind]. rewrite Bt. reflexivity. }
  destruct (str_eqb (k_text t) ($"try")) eqn:W1; [apply str_eqb_eq in W1|clear W1].
  { rb H b Hb. rb H ts1 H1. rb H c Hc. destruct c as [c rc]. injection H as <- <- <-. rb Hb bb Hbb. destruct bb as [body rb']. cbn [fst snd] in Hb.
    apply scope_ok in Hbb as (cc & r2 & tb & -> & -> & Cb & Nb). rb Hb l Hl. injection Hb as <-. cbn [fst snd next] in *. injection H1 as <-.
    destruct (good_curly _ _ _ G Cb) as [Gb G2]. apply IL in Hl as (l' & Wl & El); [|exact Gb]. apply IK in Hc as (tc & lc & -> & Wc & Ec); [|exact G2].
    found Full (t :: tb ++ tc) (YTry l' lc). split; [eapply w_try; eauto; split; assumption|].
    rewrite elab_try, El. cbn [rbind]. rewrite Ec. reflexivity. }
  destruct (str_eqb (k_text t) ($"while")) eqn:W1; [apply str_eqb_eq in W1|destruct r; discriminate].
  rb H x Hx. destruct x as [x rx]. cbn [fst snd] in H. apply in_parens_ok in Hx as (tx & inner & ex & -> & Wp & Wx & Ex); [|exact G].
  apply good_app in G as [_ G]. rb H b Hb. destruct b as [[b scb] rb']. cbn [fst snd] in H. injection H as <- <- <-.
  apply IS in Hb as (k & tb & sb & -> & _ & Wb & Eb); [|exact G].
  found k (t :: tx ++ tb) (YWhile ex sb). split; [eapply w_while; eauto; split; assumption|].
  cbn [elab_stmt]. rewrite Ex. cbn [rbind]. rewrite Eb. reflexivity.
Qed.

(** ** Everything accepted is written in the lax grammar *)
Theorem statements_accept n : ok_stmt n /\ ok_list n /\ ok_cases n /\ ok_clauses n.
Proof.
  induction n as [|n (IS & IL & IC & IK)].
  - repeat split; repeat intro; discriminate.
  - split; [apply stmt_step; assumption|]. split; [apply list_step; assumption|].
    split; [apply cases_step; assumption|apply clauses_step; assumption].
Qed.
End Accepts.
