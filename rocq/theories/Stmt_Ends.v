(** The reader of statements ends: no run needs more rounds than [read_method] gives it, and more rounds change nothing. *)
From Coq Require Import Floats.SpecFloat.
From Verif Require Import Base Base_Proofs Text_Model Tok_Model TypeTable TypeSys_Model Value_Model Parse_Model Parse_Spec
  Parse_Brackets Parse_Complete Parse_Sound Parse_Accepts Parse_Ends Decl_Model Stmt_Model Stmt_Spec Stmt_Proofs Stmt_Accepts.

Section Ends.
Context (E : senv).
Context (Each : forall p, se_each E p <> Fuel).

(** ** Tokens left over *)
Lemma eat_len ty ts r : eat ty ts = Ok r -> length ts = S (length r).
Proof. intros H. apply eat_ok in H as (t & -> & _). reflexivity. Qed.
Lemma next_len ts r : next ts = Ok r -> length ts = S (length r).
Proof. intros H. apply next_ok in H as [t ->]. reflexivity. Qed.
Lemma level_len sc n k ts p r : parse (inside E sc) n (WLevel k) ts = Ok (p, r) -> (length r < length ts)%nat.
Proof. intros H. apply rest_length in H. cbn [shrinks] in H. lia. Qed.
Lemma expression_len sc ts p r : expression E sc ts = Ok (p, r) -> (length r < length ts)%nat.
Proof. apply level_len. Qed.
Lemma parens_len sc ts p r : in_parens E sc ts = Ok (p, r) -> (length r < length ts)%nat.
Proof.
  unfold in_parens. intros H. rb H ts1 H1. rb H x Hx. rb H ts2 H2. injection H as <- <-. destruct x as [x rx]. apply eat_len in H1.
  apply expression_len in Hx. apply eat_len in H2. cbn [snd] in H2. lia.
Qed.
Lemma unless_len sc ty ts p r : unless ty (expression E sc) ts = Ok (p, r) -> (length r <= length ts)%nat.
Proof.
  unfold unless. intros H. rb H b Hb. destruct b; [injection H as <- <-; lia|]. rb H x Hx. injection H as <- <-. destruct x as [x rx].
  apply expression_len in Hx. cbn [snd]. lia.
Qed.
Lemma scope_len ts b r : collect_scope ts = Ok (b, r) -> (S (length b + length r) = length ts /\ 1 <= length r)%nat.
Proof.
  intros H. apply collect_scope_iff in H as (o & c & r' & -> & -> & _). cbn [length]. rewrite app_length. cbn [length]. lia.
Qed.
Lemma mut_len ts m r : parse_word MUTABILITY to_mutability Modify ts = Ok (m, r) -> (length r <= length ts)%nat.
Proof. intros H. apply mut_ok in H as (a & w & -> & _). rewrite app_length. lia. Qed.
Lemma acc_len d ts m r : parse_access d ts = Ok (m, r) -> (length r <= length ts)%nat.
Proof. intros H. apply acc_ok in H as (a & w & -> & _). rewrite app_length. lia. Qed.
Lemma declaration_len init sc ts q sc' r : declaration E init sc ts = Ok (q, sc', r) -> (length r < length ts)%nat.
Proof.
  unfold declaration. intros H. rb H y Hy. apply resolve_ok in Hy as (t & r0 & -> & _ & Hs). destruct y as [k y]. cbn [fst snd] in *. subst y.
  destruct k; try discriminate. rb H u Hu. apply expect_ok in Hu as (x & r' & -> & _). rb H m Hm. destruct m as [m r2]. apply mut_len in Hm.
  cbn [fst snd] in H. apply mut_match in H as [_ H]. destruct (negb _); [discriminate|]. rb H sc1 Hsc. rb H a Ha. destruct a as [a r3].
  apply acc_len in Ha. cbn [fst snd] in H. rb H b Hb. cbn [length]. destruct b.
  - destruct (negb init); [discriminate|]. rb H ts1 H1. apply next_len in H1. rb H y Hy. destruct y as [y ry]. apply expression_len in Hy. rb H g Hg.
    injection H as <- <- <-. cbn [snd]. lia.
  - destruct (_ && _); [discriminate|]. injection H as <- <- <-. lia.
Qed.
Lemma inference_len sc ts q sc' r : inference E sc ts = Ok (q, sc', r) -> (length r < length ts)%nat.
Proof.
  unfold inference. intros H. rb H u Hu. apply expect_ok in Hu as (x & r' & -> & _). rb H m Hm. destruct m as [m r2]. apply mut_len in Hm.
  cbn [fst snd] in H. apply mut_match in H as [_ H]. rb H a Ha. destruct a as [a r3]. apply acc_len in Ha. cbn [fst snd] in H.
  rb H ts1 H1. apply eat_len in H1. rb H y Hy. destruct y as [y ry]. apply expression_len in Hy. cbn [fst snd] in H.
  destruct (negb _); [discriminate|]. rb H sc1 Hs. injection H as <- <- <-. cbn [length]. lia.
Qed.
Lemma identifier_len sc ts q sc' r : identifier E sc ts = Ok (q, sc', r) -> (length r < length ts)%nat.
Proof.
  unfold identifier. intros H. rb H x Hx. apply resolve_ok in Hx as (t & r' & -> & _ & Hs). destruct x as [k y]. cbn [fst snd] in *. subst y.
  destruct r' as [|u r']; [discriminate|]. destruct (ttype_eqb _ _); [apply declaration_len in H; exact H|].
  destruct (_ || _); [injection H as <- <- <-; cbn; lia|]. rb H y Hy. destruct y as [y ry]. injection H as <- <- <-.
  apply rest_length in Hy. cbn [shrinks length snd] in *. lia.
Qed.
Lemma assignment_len sc ts q sc' r : assignment E sc ts = Ok (q, sc', r) -> (length r < length ts)%nat.
Proof. unfold assignment. intros H. rb H x Hx. destruct x as [x rx]. injection H as <- <- <-. apply expression_len in Hx. exact Hx. Qed.
Lemma flat_len sc w ts f q sc' r : flat E sc w ts = Some f -> f = Ok (q, sc', r) -> (length r <= length ts)%nat.
Proof.
  intros F H. unfold flat in F. cbv zeta in F.
  repeat match type of F with (if str_eqb ?a ?b then _ else _) = _ => destruct (str_eqb a b); [injection F as <-; try clear F|] end; [..|discriminate F].
  all: try (apply inference_len in H; lia).
  all: rb H y Hy; try (rb H z Hz; rb H b Hb; rb H m Hm); try rb H ts1 H1; injection H as E1 E2 E3; subst; cbn [fst snd] in *.
  all: try (injection Hy as <-).
  all: try (apply eat_len in H1; cbn [snd] in H1).
  1:{ apply eat_len in Hy. destruct z as [z rz]. apply expression_len in Hz. cbn [fst snd] in *. destruct b.
      - rb Hm ts2 H2. rb Hm x Hx. injection Hm as <-. destruct x as [x rx]. apply expression_len in Hx. apply next_len in H2. cbn [snd] in *. lia.
      - injection Hm as <-. cbn [snd] in *. lia. }
  all: try (rb Hy x Hx; injection Hy as <-; destruct x as [x rx]; cbn [snd] in *;
            first [apply expression_len in Hx | apply parens_len in Hx | apply unless_len in Hx]; lia).
  all: apply eat_len in Hy; lia.
Qed.

Definition len_stmt (n : nat) : Prop := forall sc ts q sc' r, statement E n sc ts = Ok (q, sc', r) -> (length r < length ts)%nat.
Definition len_cases (n : nat) : Prop := forall sc has ts c r, cases E n sc has ts = Ok (c, r) -> (length r <= length ts)%nat.
Definition len_clauses (n : nat) : Prop := forall sc has ts c r, clauses E n sc has ts = Ok (c, r) -> (length r <= length ts)%nat.

Ltac pairs := repeat match goal with
  | x : (_ * _)%type |- _ => destruct x
  | x : (option pstmt * scopes * list token)%type |- _ => destruct x end; cbn [fst snd] in *.
Ltac lens := repeat match goal with
  | H : eat _ _ = Ok _ |- _ => apply eat_len in H
  | H : next _ = Ok _ |- _ => apply next_len in H
  | H : expression _ _ _ = Ok _ |- _ => apply expression_len in H
  | H : parse _ _ (WLevel _) _ = Ok _ |- _ => apply level_len in H
  | H : in_parens _ _ _ = Ok _ |- _ => apply parens_len in H
  | H : unless _ _ _ = Ok _ |- _ => apply unless_len in H
  | H : collect_scope _ = Ok _ |- _ => apply scope_len in H
  | H : declaration _ _ _ _ = Ok _ |- _ => apply declaration_len in H
  | I : len_stmt ?n, H : statement _ ?n _ _ = Ok _ |- _ => apply I in H
  | I : len_cases ?n, H : cases _ ?n _ _ _ = Ok _ |- _ => apply I in H
  | I : len_clauses ?n, H : clauses _ ?n _ _ _ = Ok _ |- _ => apply I in H
  | I : len_cases ?n, H : _ ?n _ _ _ = Ok _ |- _ => apply I in H
  | I : len_clauses ?n, H : _ ?n _ _ _ = Ok _ |- _ => apply I in H
  end.
Ltac some_list H := match type of H with (match ?l with _ => _ end) = _ => destruct l; [discriminate H|] end.
Ltac nx H := let x := fresh "x" in let Hx := fresh "Hx" in rb H x Hx; pairs.

Lemma catch_len sc ts d : catch_decl E sc ts = Ok d -> (length (snd d) <= length ts)%nat.
Proof.
  unfold catch_decl. intros H. nx H. destruct x; [|injection H as <- <- <-; cbn; lia]. nx H. nx H. nx H. injection H as <- <- <-. lens. lia.
Qed.
Lemma opt_len n : len_stmt n -> forall (b : bool) s a q s' r, (if b then Ok (None, s, a) else statement E n s a) = Ok (q, s', r) ->
  (length r <= length a)%nat.
Proof. intros I [] s a q s' r H; [injection H as <- <- <-; lia|]. apply I in H. lia. Qed.
Lemma lengths n : len_stmt n /\ len_cases n /\ len_clauses n.
Proof.
  induction n as [|n (IS & IC & IK)]; [repeat split; repeat intro; discriminate|]. repeat split.
  - intros sc ts q sc' r H. cbn [statement] in H. destruct ts as [|t ts]; [discriminate|]. destruct (is t BRACKET_CURLY_OPEN).
    { nx H. nx H. injection H as <- <- <-. nx Hx. nx Hx. injection Hx as <- <-. lens. lia. }
    destruct (is t IDENTIFIER).
    { destruct ts as [|u ts]; [discriminate|]. nx H. injection H as <- <- <-.
      destruct (cat_assignment u); [apply assignment_len in Hx|apply identifier_len in Hx]; exact Hx. }
    destruct (is t KEYWORD).
    2:{ destruct (is t PARENTHESIS_OPEN); [nx H; injection H as <- <- <-; lens; lia|].
        destruct (is t SEMICOLON); [|discriminate]. injection H as <- <- <-. cbn [length]. lia. }
    destruct (flat E sc (k_text t) ts) as [f|] eqn:F.
    { nx H. injection H as <- <- <-. eapply flat_len in F; [|reflexivity]. cbn [length]. lia. }
    cbv zeta in H. cbn [length].
    destruct (str_eqb _ _).
    { nx H. nx H. nx H. nx H. nx H. nx H. nx H. nx H. nx H. nx H. injection H as <- <- <-. 
      repeat match goal with H : (if _ then Ok (None, _, _) else _) = Ok _ |- _ => apply (opt_len n IS) in H end.
      lens. lia. }
    destruct (str_eqb _ _); [repeat nx H; injection H as <- <- <-; lens; lia|].
    destruct (str_eqb _ _).
    { rb H x Hx. rb H a Ha. rb H b Hb. destruct x as [x rx], a as [[a sa] ra], b as [[b sb] rb']. cbn [fst snd] in *. injection H as <- <- <-. lens.
      destruct ra as [|u ra]; [injection Hb as <- <- <-; cbn [length] in *; lia|].
      destruct (_ && _); [lens|injection Hb as <- <- <-]; cbn [length] in *; lia. }
    destruct (str_eqb _ _); [repeat nx H; destruct (negb _); [discriminate|]; nx H; injection H as <- <- <-; lens; lia|].
    destruct (str_eqb _ _); [nx H; nx H; nx H; injection H as <- <- <-; repeat nx Hx; injection Hx as <- <-; lens; lia|].
    destruct (str_eqb _ _); [repeat nx H; injection H as <- <- <-; lens; lia|]. destruct ts; discriminate.
  - intros sc has ts c r H. cbn [cases] in H. destruct ts as [|t ts]; [discriminate|]. destruct (is t BRACKET_CURLY_CLOSE); [injection H; intros; subst; lia|].
    destruct (_ && _).
    { nx H. nx H. nx H. nx H. injection H; intros; subst. nx Hx1. nx Hx1. some_list Hx1. nx Hx1. injection Hx1 as <- <-. lens. cbn [length]. lia. }
    destruct (_ && _); [|discriminate]. destruct has; [discriminate|].
    nx H. nx H. nx H. injection H; intros; subst. nx Hx0. nx Hx0. some_list Hx0. nx Hx0. injection Hx0 as <- <-. lens. cbn [length]. lia.
  - intros sc has ts c r H. cbn [clauses] in H. destruct ts as [|t ts]; [injection H; intros; subst; lia|]. destruct (str_eqb _ _).
    { nx H. nx H. nx H. injection H; intros; subst. nx Hx0. nx Hx0. nx Hx0. injection Hx0 as <- <-. apply catch_len in Hx. cbn [snd length] in *. lens. lia. }
    destruct (str_eqb _ _); [|injection H; intros; subst; lia]. destruct has; [discriminate|].
    nx H. nx H. injection H; intros; subst. nx Hx. nx Hx. nx Hx. injection Hx as <- <-. lens. cbn [length]. lia.
Qed.

(** ** No part of the reader runs out of rounds *)
Lemma eat_fuel ty ts : eat ty ts <> Fuel.
Proof. unfold eat. apply bind_fuel; [apply expect_fuel|]. intros _ _. destruct ts; discriminate. Qed.
Lemma next_fuel ts : next ts <> Fuel.
Proof. destruct ts; discriminate. Qed.
Lemma here_fuel ty ts : here ty ts <> Fuel.
Proof. destruct ts; discriminate. Qed.
Lemma level_fuel sc k ts : (k <= 3)%nat -> parse (inside E sc) (rounds ts) (WLevel k) ts <> Fuel.
Proof. intros K. apply ends; [exact K|]. unfold rounds. cbn [rank]. lia. Qed.
Lemma expression_fuel sc ts : expression E sc ts <> Fuel.
Proof. apply level_fuel. lia. Qed.
Lemma parens_fuel sc ts : in_parens E sc ts <> Fuel.
Proof.
  unfold in_parens. apply bind_fuel; [apply eat_fuel|]. intros ? _. apply bind_fuel; [apply expression_fuel|]. intros ? _.
  apply bind_fuel; [apply eat_fuel|discriminate].
Qed.
Lemma unless_fuel sc ty ts : unless ty (expression E sc) ts <> Fuel.
Proof.
  unfold unless. apply bind_fuel; [apply here_fuel|]. intros [] _; [discriminate|]. apply bind_fuel; [apply expression_fuel|discriminate].
Qed.
Lemma curly_fuel ty ts : forall n, find_curly ty n ts <> Fuel.
Proof. induction ts as [|t ts IH]; intros n; cbn [find_curly]; repeat (case_match; try discriminate); apply IH. Qed.
Lemma scope_fuel ts : collect_scope ts <> Fuel.
Proof.
  unfold collect_scope. apply bind_fuel; [apply expect_fuel|]. intros _ _. apply bind_fuel; [apply curly_fuel|]. intros c _.
  apply bind_fuel; [|intros x _; apply bind_fuel; [apply expect_fuel|discriminate]].
  generalize (S (length c)). intros k. induction ts as [|t ts IH]; cbn [copy_until]; [discriminate|].
  destruct (_ =? _)%nat; [discriminate|]. destruct ts; [discriminate|]. apply bind_fuel; [exact IH|discriminate].
Qed.
Lemma define_fuel x k sc : define_local x k sc <> Fuel.
Proof. unfold define_local. repeat (case_match; try discriminate). Qed.
Lemma word_fuel {A} ty (f : str -> A) d ts : parse_word ty f d ts <> Fuel.
Proof. unfold parse_word. repeat (case_match; try discriminate). Qed.
Lemma access_fuel d ts : parse_access d ts <> Fuel.
Proof. unfold parse_access. repeat (case_match; try discriminate). Qed.
Ltac nf := repeat first
  [ discriminate | apply eat_fuel | apply next_fuel | apply here_fuel | apply expression_fuel | apply parens_fuel | apply unless_fuel
  | apply scope_fuel | apply define_fuel | apply word_fuel | apply access_fuel | apply expect_fuel | apply resolve_fuel
  | apply get_type_fuel | apply Each | apply level_fuel; lia
  | apply bind_fuel; [|intros ? ?] | match goal with |- forall _, _ = Ok _ -> _ => intros ? ? end | match goal with |- (match ?x with _ => _ end) <> _ => destruct x eqn:? end ].
Lemma declaration_fuel init sc ts : declaration E init sc ts <> Fuel.
Proof. unfold declaration. nf. Qed.
Lemma inference_fuel sc ts : inference E sc ts <> Fuel.
Proof. unfold inference. nf. Qed.
Lemma identifier_fuel sc ts : identifier E sc ts <> Fuel.
Proof.
  unfold identifier. apply bind_fuel; [apply resolve_fuel|]. intros x Hx. apply resolve_ok in Hx as (t & r & -> & _ & Hs).
  rewrite Hs. destruct r; [discriminate|]. destruct (ttype_eqb _ _); [apply declaration_fuel|]. destruct (_ || _); [discriminate|].
  apply bind_fuel; [|discriminate]. apply ends; [exact I|]. unfold rounds. cbn [rank length]. lia.
Qed.
Lemma assignment_fuel sc ts : assignment E sc ts <> Fuel.
Proof. unfold assignment. nf. Qed.
Lemma flat_fuel sc w ts : flat E sc w ts <> Some Fuel.
Proof.
  unfold flat. cbv zeta. intros F.
  repeat match type of F with (if str_eqb ?a ?b then _ else _) = _ => destruct (str_eqb a b); [injection F as F; revert F|] end; [..|discriminate F].
  all: try apply inference_fuel. all: nf.
Qed.
Lemma catch_fuel sc ts : catch_decl E sc ts <> Fuel.
Proof. unfold catch_decl. nf. Qed.

Definition ends_stmt (n : nat) : Prop := forall sc ts, (2 * length ts < n)%nat -> statement E n sc ts <> Fuel.
Definition ends_list (n : nat) : Prop := forall sc ts, (2 * length ts + 1 < n)%nat -> statements E n sc ts <> Fuel.
Definition ends_cases (n : nat) : Prop := forall sc has ts, (2 * length ts < n)%nat -> cases E n sc has ts <> Fuel.
Definition ends_clauses (n : nat) : Prop := forall sc has ts, (2 * length ts < n)%nat -> clauses E n sc has ts <> Fuel.
Theorem statements_end n : ends_stmt n /\ ends_list n /\ ends_cases n /\ ends_clauses n.
Proof.
  induction n as [|n (IS & IL & IC & IK)]; [repeat split; repeat intro; lia|].
  destruct (lengths n) as (LS & LC & LK).
  repeat split.
  - intros sc ts Hn. cbn [statement]. destruct ts as [|t ts]; [discriminate|]. cbn [length] in Hn. destruct (is t BRACKET_CURLY_OPEN).
    { apply bind_fuel; [|nf]. apply bind_fuel; [nf|]. intros b Hb. apply bind_fuel; [|discriminate]. apply IL. pairs. lens. cbn [length] in *. lia. }
    destruct (is t IDENTIFIER).
    { destruct ts as [|u ts]; [discriminate|]. apply bind_fuel; [|discriminate]. destruct (cat_assignment u); [apply assignment_fuel|apply identifier_fuel]. }
    destruct (is t KEYWORD); [|nf].
    destruct (flat E sc (k_text t) ts) as [f|] eqn:F.
    { apply bind_fuel; [|discriminate]. intros ->. apply flat_fuel in F. exact F. }
    cbv zeta.
    destruct (str_eqb _ _).
    { apply bind_fuel; [nf|]. intros ts1 H1. apply bind_fuel; [nf|]. intros b Hb. apply eat_len in H1. apply bind_fuel; [destruct b; [discriminate|apply IS; lia]|].
      intros [[i sci] ri] Hi. apply (opt_len n LS) in Hi. cbn [fst snd]. apply bind_fuel; [nf|]. intros ts2 H2. apply next_len in H2.
      apply bind_fuel; [nf|]. intros [c rc] Hc. apply unless_len in Hc. cbn [fst snd]. apply bind_fuel; [nf|]. intros ts3 H3. apply next_len in H3.
      apply bind_fuel; [nf|]. intros b2 Hb2. apply bind_fuel; [destruct b2; [discriminate|apply IS; lia]|].
      intros [[u scu] ru] Hu. apply (opt_len n LS) in Hu. cbn [fst snd]. apply bind_fuel; [nf|]. intros ts4 H4. apply next_len in H4.
      apply bind_fuel; [apply IS; lia|discriminate]. }
    destruct (str_eqb _ _).
    { apply bind_fuel; [nf|]. intros ts1 H1. apply bind_fuel; [apply declaration_fuel|]. intros [[d sd] rd] Hd. cbn [fst snd].
      apply bind_fuel; [nf|]. intros ts2 H2. apply bind_fuel; [nf|]. intros [x rx] Hx. cbn [fst snd]. apply bind_fuel; [nf|]. intros _ _.
      apply bind_fuel; [nf|]. intros ts3 H3. apply bind_fuel; [|discriminate]. apply IS. lens. lia. }
    destruct (str_eqb _ _).
    { apply bind_fuel; [nf|]. intros [x rx] Hx. cbn [fst snd]. apply bind_fuel; [apply IS; lens; lia|]. intros [[a sa] ra] Ha. cbn [fst snd].
      apply bind_fuel; [|discriminate]. destruct ra as [|u ra]; [discriminate|]. destruct (_ && _); [|discriminate]. apply IS. lens. cbn [length] in *. lia. }
    destruct (str_eqb _ _).
    { apply bind_fuel; [nf|]. intros [x rx] Hx. cbn [fst snd]. apply bind_fuel; [nf|]. intros ts1 H1. apply bind_fuel; [apply IC; lens; lia|]. nf. }
    destruct (str_eqb _ _).
    { apply bind_fuel; [apply bind_fuel; [nf|]; intros [b rb'] Hb; apply bind_fuel; [|discriminate]; apply IL; lens; cbn [fst]; lia|].
      intros [l rl] Hl. cbn [fst snd]. rb Hl b Hb. rb Hl l' Hl'. injection Hl as <- <-. destruct b as [b rb']. cbn [fst snd].
      apply bind_fuel; [nf|]. intros ts1 H1. apply bind_fuel; [apply IK; lens; lia|discriminate]. }
    destruct (str_eqb _ _); [|nf].
    apply bind_fuel; [nf|]. intros [x rx] Hx. cbn [fst snd]. apply bind_fuel; [apply IS; lens; lia|discriminate].
  - intros sc ts Hn. cbn [statements]. destruct ts as [|t ts]; [discriminate|]. destruct (is t ENDOFFILE); [discriminate|].
    apply bind_fuel; [apply IS; lia|]. intros [[q s] r] Hq. cbn [fst snd]. apply bind_fuel; [|discriminate]. apply IL. apply LS in Hq. lia.
  - intros sc has ts Hn. cbn [cases]. destruct ts as [|t ts]; [discriminate|]. cbn [length] in Hn. destruct (is t BRACKET_CURLY_CLOSE); [discriminate|].
    assert (P : forall h ts1, (length ts1 < length ts)%nat -> forall K, (forall (b : list pstmt * list token), (length (snd b) < length ts)%nat -> K b <> Fuel) ->
      rbind (let! b := collect_scope ts1 in let! l := statements E n ([] :: sc) (fst b) in
             match l with [] => Throw "ControlFlowException" | _ => let! ts2 := next (snd b) in Ok (l, ts2) end) K <> (Fuel : res h)).
    { intros h ts1 Hl K HK. apply bind_fuel.
      - apply bind_fuel; [nf|]. intros [b rb'] Hb. cbn [fst snd]. apply bind_fuel; [apply IL; lens; lia|]. intros l _. destruct l; nf.
      - intros b Hb. apply HK. rb Hb bb Hbb. destruct bb as [body rb']. cbn [fst snd] in Hb. rb Hb l Hl'. destruct l; [discriminate|].
        rb Hb ts2 H2. injection Hb as <-. cbn [snd]. lens. lia. }
    destruct (_ && _).
    { apply bind_fuel; [nf|]. intros [x rx] Hx. cbn [fst snd]. apply bind_fuel; [nf|]. intros ts1 H1. lens. apply P; [lia|]. intros b Hb.
      apply bind_fuel; [apply IC; lia|discriminate]. }
    destruct (_ && _); [|discriminate]. destruct has; [discriminate|]. apply bind_fuel; [nf|]. intros ts1 H1. lens. apply P; [lia|]. intros b Hb.
    apply bind_fuel; [apply IC; lia|discriminate].
  - intros sc has ts Hn. cbn [clauses]. destruct ts as [|t ts]; [discriminate|]. cbn [length] in Hn.
    assert (P : forall h sc1 ts1, (length ts1 <= length ts)%nat -> forall K, (forall (b : list pstmt * list token), (length (snd b) < length ts)%nat -> K b <> Fuel) ->
      rbind (let! b := collect_scope ts1 in let! l := statements E n ([] :: sc1) (fst b) in
             let! ts2 := next (snd b) in Ok (l, ts2)) K <> (Fuel : res h)).
    { intros h sc1 ts1 Hl K HK. apply bind_fuel.
      - apply bind_fuel; [nf|]. intros [b rb'] Hb. cbn [fst snd]. apply bind_fuel; [apply IL; lens; lia|]. intros l _. nf.
      - intros b Hb. apply HK. rb Hb bb Hbb. destruct bb as [body rb']. cbn [fst snd] in Hb. rb Hb l Hl'.
        rb Hb ts2 H2. injection Hb as <-. cbn [snd]. lens. lia. }
    destruct (str_eqb _ _).
    { apply bind_fuel; [apply catch_fuel|]. intros d Hd. apply catch_len in Hd. apply P; [lia|]. intros b Hb. apply bind_fuel; [apply IK; lia|discriminate]. }
    destruct (str_eqb _ _); [|discriminate]. destruct has; [discriminate|]. apply P; [lia|]. intros b Hb. apply bind_fuel; [apply IK; lia|discriminate].
Qed.

(** ** More rounds change nothing *)
Ltac mono := repeat first
  [ reflexivity
  | assumption
  | match goal with IH : forall sc ts r, r <> Fuel -> _ -> _ |- _ => apply IH; [assumption|reflexivity] end
  | match goal with IH : forall sc has ts r, r <> Fuel -> _ -> _ |- _ => apply IH; [assumption|reflexivity] end
  | match goal with
    | Hr : ?r <> Fuel |- rbind _ _ = ?r => eapply bind_mono; [exact Hr|reflexivity| |];
        [let x := fresh in let E := fresh in intros x E ?; first [exact E|rewrite <- E in *; clear E x]
        |let a := fresh "a" in let E := fresh in let H := fresh in intros a E H; rewrite <- H in *; clear H]
    end
  | match goal with |- match ?e with _ => _ end = _ => destruct e eqn:? end
  | match goal with |- (if ?e then _ else _) = _ => destruct e end ].
Theorem more_rounds n :
  (forall sc ts r, r <> Fuel -> statement E n sc ts = r -> statement E (S n) sc ts = r) /\
  (forall sc ts r, r <> Fuel -> statements E n sc ts = r -> statements E (S n) sc ts = r) /\
  (forall sc has ts r, r <> Fuel -> cases E n sc has ts = r -> cases E (S n) sc has ts = r) /\
  (forall sc has ts r, r <> Fuel -> clauses E n sc has ts = r -> clauses E (S n) sc has ts = r).
Proof.
  induction n as [|n (IS & IL & IC & IK)]; [repeat split; intros; cbn in *; congruence|].
  repeat split; intros; match goal with H : _ = ?r |- _ = ?r => cbn [statement statements cases clauses] in H; rewrite <- H in *; clear H end;
  remember (S n) as n1; cbn [statement statements cases clauses]; cbv zeta in *.
  - mono.
  - mono.
  - mono.
  - mono.
Qed.
End Ends.
