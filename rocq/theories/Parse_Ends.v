(** Reading an expression ends for every list of tokens, and more fuel changes nothing. *)
From Coq Require Import Floats.SpecFloat.
From Verif Require Import Base Base_Proofs Text_Model Tok_Model TypeTable TypeSys_Model Value_Model Parse_Model
  Parse_Spec Parse_Brackets Parse_Complete Parse_Sound Parse_Accepts.

Section Ends.
Context (env : penv).
Notation parse := (parse env).

Lemma find_balanced_length op cl term start ts : forall n s, (length ts <= length start)%nat ->
  find_balanced op cl term start n ts = Ok s -> (length s <= length start)%nat.
Proof.
  induction ts as [|t ts IH]; intros n s Hl H; [discriminate|]. cbn [find_balanced] in H. cbn in Hl.
  destruct (_ || _).
  - destruct (ttype_eqb _ term); [injection H as <-; lia|]. apply IH in H; lia.
  - injection H as <-. cbn. lia.
Qed.
Lemma tail_length {A} (l : list A) : (length (tail l) <= length l)%nat.
Proof. destruct l; cbn; lia. Qed.

Definition shrinks (w : what) : bool := match w with WLevel _ | WInfix | WTerm => true | _ => false end.

Lemma rest_length n : forall w ts q rest, parse n w ts = Ok (q, rest) ->
  (length rest + (if shrinks w then 1 else 0) <= length ts)%nat.
Proof.
  induction n as [|n IH]; intros w ts q rest H; [discriminate|].
  assert (IH3 : forall k ts q rest, parse n (WLevel k) ts = Ok (q, rest) -> (length rest + 1 <= length ts)%nat)
    by (intros k ts' q' r'; apply (IH (WLevel k))).
  assert (IHb : forall k ts q rest, parse n (match k with O => WInfix | S j => WLevel j end) ts = Ok (q, rest) ->
    (length rest + 1 <= length ts)%nat) by (intros [|k] ts' q' r'; [apply (IH WInfix)|apply (IH (WLevel k))]).
  assert (IHt : forall ts q rest, parse n WTerm ts = Ok (q, rest) -> (length rest + 1 <= length ts)%nat)
    by (intros ts' q' r'; apply (IH WTerm)).
  destruct w; cbn [Parse_Model.parse] in H; cbn [shrinks].
  - ib H. destruct a as [a r1]. cbn [fst snd] in H. apply IHb in E. apply IH in H. cbn [shrinks] in H. lia.
  - destruct ts as [|t r]; [discriminate|]. cbn [length]. destruct (is_op _ _).
    + ib H. ib H. destruct a0 as [a0 r1]. cbn [fst snd] in *. apply IHb in E. apply IH in H. cbn [shrinks] in H. lia.
    + injection H as <- <-. cbn. lia.
  - destruct ts as [|t r]; [discriminate|]. cbn [length]. ib H. destruct a as [a r1]. cbn [fst snd] in *.
    apply IH in H. cbn [shrinks] in H.
    destruct (ty_in _ _); [ib E; ib E; injection E as <- <-; destruct a0; cbn [fst snd] in *; apply IHt in E0; lia|].
    destruct (ttype_eqb _ _); [ib E; injection E as <- <-; destruct a0; cbn [fst snd] in *; apply IHt in E0; lia|].
    apply IHt in E. cbn [length] in E. lia.
  - destruct ts as [|t r]; [discriminate|]. cbn [length].
    destruct (ttype_eqb _ OPERATOR_IS).
    { ib H. injection H as <- <-. apply resolve_ok in E as (u & r' & -> & _ & ->). cbn [length]. lia. }
    destruct (ttype_eqb _ OPERATOR_RANGE); [discriminate|].
    destruct (ttype_eqb _ QUESTION_MARK).
    { destruct r as [|u r]; [discriminate|]. ib H. ib H. ib H. ib H. injection H as <- <-.
      destruct a0 as [oa r1]. destruct a2 as [z r2]. cbn [fst snd] in *. apply IH3 in E1 as E4.
      match goal with E : parse n (WLevel 3) (tail r1) = _ |- _ => apply IH3 in E as E5 end.
      pose proof (tail_length r1). cbn [length].
      destruct (ttype_eqb (k_type u) COLON).
      - injection E as _ <-. cbn [length tail] in *. lia.
      - ib E. injection E as _ <-. destruct a0 as [y r3]. cbn [fst snd] in *.
        match goal with E : parse n (WLevel 3) (u :: r) = _ |- _ => apply IH3 in E; cbn [length] in E end. lia. }
    apply IH in H. cbn [shrinks length] in H. lia.
  - destruct ts as [|t r]; [discriminate|]. cbn [length].
    destruct (ttype_eqb _ BRACKET_OPEN); [discriminate|].
    destruct (ty_in _ _); [apply IH in H; cbn [shrinks] in H; lia|].
    destruct (ttype_eqb _ OPERATOR_NOT); [apply IH in H; cbn [shrinks] in H; lia|].
    destruct (ttype_eqb _ OPERATOR_SCOPE); [discriminate|]. injection H as <- <-. cbn. lia.
  - destruct ts as [|t r]; [discriminate|]. cbn [length].
    destruct (literal _ _ _); [injection H as <- <-; lia|].
    destruct (ttype_eqb _ IDENTIFIER).
    { ib H. apply resolve_ok in E as (u & r' & E & _ & Es). injection E as <- <-. rewrite Es in H.
      apply IH in H. cbn [shrinks] in H. lia. }
    destruct (ttype_eqb _ KEYWORD); [apply IH in H; cbn [shrinks] in H; lia|].
    destruct (ttype_eqb _ PARENTHESIS_OPEN); [|discriminate]. ib H. ib H. injection H as <- <-.
    destruct a as [a r1]. cbn [fst snd] in *. apply IH3 in E. pose proof (tail_length r1). lia.
  - destruct ts as [|t r]; [discriminate|]. cbn [length].
    destruct (_ || _ || _).
    { destruct k; try discriminate. ib H. injection H as <- <-. destruct a as [a r1]. cbn [fst snd] in *.
      apply IH3 in E. cbn [length] in E. lia. }
    destruct (cat_assignment t).
    { ib H. ib H. injection H as <- <-. destruct a as [a r1]. cbn [fst snd] in *. apply IH3 in E. lia. }
    destruct (ttype_eqb _ PARENTHESIS_OPEN).
    { ib H. ib H. ib H. injection H as <- <-. apply find_balanced_length in E; [|lia].
      pose proof (tail_length a). lia. }
    destruct (ttype_eqb _ BRACKET_OPEN); [discriminate|].
    destruct (_ || _); [ib H; injection H as <- <-; lia|]. injection H as <- <-. cbn. lia.
  - destruct (str_eqb s _).
    { ib H. apply expect_ok in E as (? & r1 & -> & _). cbn [tail] in H. ib H.
      apply type_name_ok in E as (? & r2 & ? & -> & _ & Es). rewrite Es in H.
      ib H. ib H. ib H. ib H. ib H. injection H as <- <-.
      match goal with E : parse n _ _ = Ok ?p |- _ => destruct p as [y r3]; apply IH3 in E end. cbn [fst snd] in *.
      pose proof (tail_length r3). pose proof (tail_length r2). pose proof (tail_length (tail r2)). cbn [length]. lia. }
    destruct (str_eqb s _).
    { ib H. ib H. ib H. injection H as <- <-.
      match goal with E : parse n _ _ = Ok ?p |- _ => destruct p as [y r3]; apply IH3 in E end. cbn [fst snd] in *.
      pose proof (tail_length r3). pose proof (tail_length ts). lia. }
    destruct (_ || _); discriminate.
Qed.

(** ** No part of the reader runs out of fuel *)
Lemma get_type_fuel t a op b : get_type t a op b <> Fuel.
Proof. unfold get_type. repeat (case_match; try discriminate). Qed.
Lemma expect_fuel ty ts : expect ty ts <> Fuel.
Proof. unfold expect. destruct ts; [discriminate|]. destruct (ttype_eqb _ _); discriminate. Qed.
Lemma find_next_fuel start ty ts : find_next start ty ts <> Fuel.
Proof. induction ts; cbn [find_next]; [discriminate|]. repeat (case_match; try discriminate). assumption. Qed.
Lemma find_balanced_fuel op cl term start ts : forall n, find_balanced op cl term start n ts <> Fuel.
Proof. induction ts; intros n; cbn [find_balanced]; [discriminate|]. repeat (case_match; try discriminate); apply IHts. Qed.
Lemma resolve_fuel ts : resolve_name env ts <> Fuel.
Proof. unfold resolve_name. repeat (case_match; try discriminate). Qed.
Lemma type_name_fuel ts : type_name env ts <> Fuel.
Proof.
  unfold type_name. pose proof (resolve_fuel ts). destruct (resolve_name env ts); cbn [rbind]; try congruence.
  destruct (fst a); discriminate.
Qed.
Ltac nofuel := repeat first
  [ discriminate
  | match goal with
    | |- context [get_type ?t ?a ?b ?c] =>
        let E := fresh in pose proof (get_type_fuel t a b c) as E; destruct (get_type t a b c); cbn [rbind]; [clear E| | |congruence]
    end
  | case_match ].
Lemma node_fuel k t a b : node env k t a b <> Fuel.
Proof.
  assert (arith_node env t a b <> Fuel) by (unfold arith_node; nofuel).
  assert (cmp_node env t a b <> Fuel).
  { unfold cmp_node. cbv zeta. match goal with |- context [get_type ?t ?a ?b ?c] => 
      pose proof (get_type_fuel t a b c) as E; destruct (get_type t a b c); cbn [rbind]; [clear E|discriminate|discriminate|congruence] end.
    case_match; [discriminate|]. 
    match goal with |- rbind ?e _ <> _ => assert (e <> Fuel) by (repeat (case_match; try discriminate)); destruct e end;
    cbn [rbind]; congruence. }
  destruct k as [|[|[|k]]]; cbn [node]; auto; discriminate.
Qed.
Lemma sign_fuel t a : sign_node env t a <> Fuel.
Proof. unfold sign_node. nofuel. Qed.
Lemma ternary_fuel c a b : ternary_node c a b <> Fuel.
Proof. unfold ternary_node. nofuel. Qed.
Lemma cast_fuel t a : cast_node env t a <> Fuel.
Proof. unfold cast_node. nofuel. Qed.
Lemma call_fuel f l : call_node env f l <> Fuel.
Proof. unfold call_node. nofuel. Qed.
Lemma step_fuel t x k : step_node t x k <> Fuel.
Proof. unfold step_node. nofuel. Qed.
Lemma assign_fuel t x k b : assign_node env t x k b <> Fuel.
Proof.
  unfold assign_node.
  match goal with |- rbind ?e _ <> _ => assert (N : e <> Fuel) by nofuel; destruct e end; cbn [rbind]; nofuel; congruence.
Qed.

Lemma bind_fuel {A B} (e : res A) (f : A -> res B) : e <> Fuel -> (forall a, e = Ok a -> f a <> Fuel) -> rbind e f <> Fuel.
Proof. destruct e; cbn; intros; auto; discriminate. Qed.

Lemma args_fuel ex closed m : forall tmp, (length tmp < m)%nat ->
  (forall ts, (length ts <= length tmp)%nat -> ex ts <> Fuel) ->
  (forall ts q rest, ex ts = Ok (q, rest) -> (length rest <= length ts)%nat) ->
  args_loop ex m closed tmp <> Fuel.
Proof.
  induction m as [|m IH]; intros tmp Hm H1 H2; [lia|]. cbn [args_loop].
  destruct (_ =? _)%nat; [discriminate|]. apply bind_fuel; [apply H1; lia|]. intros [a tmp1] E. apply H2 in E.
  destruct (_ <? _)%nat; [discriminate|]. destruct (_ =? _)%nat; [discriminate|].
  apply bind_fuel; [apply find_next_fuel|]. intros tmp2 E2. apply find_next_length in E2; [|lia].
  destruct (_ <? _)%nat; [discriminate|]. destruct tmp2 as [|u tmp3]; [discriminate|]. cbn [length] in E2.
  apply bind_fuel; [|discriminate]. apply IH; [lia| |exact H2]. intros ts Ht. apply H1. lia.
Qed.

Definition rank (w : what) : nat :=
  match w with
  | WLevel k => 3 + k | WLoop _ _ => 1 | WInfix => 2 | WPostfix _ => 2 | WRepeat _ => 1 | WTerm => 1
  | WName _ _ => 7 | WWord _ => 7
  end.
Definition known (w : what) : Prop := match w with WLevel k | WLoop k _ => (k <= 3)%nat | _ => True end.

Theorem ends n : forall w ts, known w -> (10 * length ts + rank w < n)%nat -> parse n w ts <> Fuel.
Proof.
  induction n as [|n IH]; intros w ts K Hn; [lia|].
  assert (IHl : forall k ts, (k <= 3)%nat -> (10 * length ts + 3 + k < n)%nat -> parse n (WLevel k) ts <> Fuel)
    by (intros k ts' Hk Hl; apply IH; [exact Hk|cbn [rank]; lia]).
  assert (IHb : forall k ts, (k <= 3)%nat -> (10 * length ts + 2 + k < n)%nat ->
    parse n (match k with O => WInfix | S j => WLevel j end) ts <> Fuel)
    by (intros [|k] ts' Hk Hl; apply IH; cbn [known rank]; try exact I; lia).
  assert (Lb : forall k ts q rest, parse n (match k with O => WInfix | S j => WLevel j end) ts = Ok (q, rest) ->
    (length rest + 1 <= length ts)%nat)
    by (intros [|k] ts' q' r' H'; [apply (rest_length n WInfix) in H'|apply (rest_length n (WLevel k)) in H']; exact H').
  assert (Ll : forall k ts q rest, parse n (WLevel k) ts = Ok (q, rest) -> (length rest + 1 <= length ts)%nat)
    by (intros k ts' q' r' H'; apply (rest_length n (WLevel k)) in H'; exact H').
  assert (Lt : forall ts q rest, parse n WTerm ts = Ok (q, rest) -> (length rest + 1 <= length ts)%nat)
    by (intros ts' q' r' H'; apply (rest_length n WTerm) in H'; exact H').
  destruct w; cbn [Parse_Model.parse]; cbn [rank known] in Hn, K.
  - apply bind_fuel; [apply IHb; lia|]. intros [a r] E. cbn [fst snd]. apply Lb in E. apply IH; cbn [rank known]; lia.
  - destruct ts as [|t r]; [discriminate|]. cbn [length] in Hn. destruct (is_op _ _); [|discriminate].
    apply bind_fuel; [apply IHb; lia|]. intros [b r1] E. cbn [fst snd]. apply Lb in E.
    apply bind_fuel; [apply node_fuel|]. intros c _. apply IH; cbn [rank known]; lia.
  - destruct ts as [|t r]; [discriminate|]. cbn [length] in Hn.
    apply bind_fuel.
    + destruct (ty_in _ _); [|destruct (ttype_eqb _ _)].
      * apply bind_fuel; [apply IH; cbn [rank known]; auto; lia|]. intros y _. apply bind_fuel; [apply sign_fuel|discriminate].
      * apply bind_fuel; [apply IH; cbn [rank known]; auto; lia|discriminate].
      * apply IH; cbn [rank known length]; auto; lia.
    + intros [a r1] E. cbn [fst snd]. apply IH; cbn [rank known]; [exact I|].
      destruct (ty_in _ _); [|destruct (ttype_eqb _ _)].
      * ib E. ib E. injection E as <- <-. destruct a0. apply Lt in E0. cbn [snd]. lia.
      * ib E. injection E as <- <-. destruct a0. apply Lt in E0. cbn [snd]. lia.
      * apply Lt in E. cbn [length] in E. lia.
  - destruct ts as [|t r]; [discriminate|]. cbn [length] in Hn.
    destruct (ttype_eqb _ OPERATOR_IS); [apply bind_fuel; [apply resolve_fuel|discriminate]|].
    destruct (ttype_eqb _ OPERATOR_RANGE); [discriminate|].
    destruct (ttype_eqb _ QUESTION_MARK).
    + destruct r as [|u r]; [discriminate|].
      apply bind_fuel.
      * destruct (ttype_eqb _ COLON); [discriminate|]. apply bind_fuel; [apply IHl; lia|discriminate].
      * intros [oa r1] E. cbn [fst snd].
        assert (L1 : (length r1 <= length (u :: r))%nat).
        { destruct (ttype_eqb _ COLON); [injection E as _ <-; lia|]. ib E. injection E as _ <-. destruct a0.
          apply Ll in E0. cbn [snd]. lia. }
        apply bind_fuel; [apply expect_fuel|]. intros _ _. pose proof (tail_length r1).
        apply bind_fuel; [apply IHl; lia|]. intros z _. apply bind_fuel; [apply ternary_fuel|discriminate].
    + apply IH; cbn [rank known length]; auto; lia.
  - destruct ts as [|t r]; [discriminate|]. cbn [length] in Hn.
    destruct (ttype_eqb _ BRACKET_OPEN); [discriminate|].
    destruct (ty_in _ _); [apply IH; cbn [rank known]; auto; lia|].
    destruct (ttype_eqb _ OPERATOR_NOT); [apply IH; cbn [rank known]; auto; lia|].
    destruct (ttype_eqb _ OPERATOR_SCOPE); discriminate.
  - destruct ts as [|t r]; [discriminate|]. cbn [length] in Hn. destruct (literal _ _ _); [discriminate|].
    destruct (ttype_eqb _ IDENTIFIER).
    { apply bind_fuel; [apply resolve_fuel|]. intros x E. apply resolve_ok in E as (u & r' & E & _ & ->). injection E as <- <-.
      apply IH; cbn [rank known]; auto; lia. }
    destruct (ttype_eqb _ KEYWORD); [apply IH; cbn [rank known]; auto; lia|].
    destruct (ttype_eqb _ PARENTHESIS_OPEN); [|discriminate].
    apply bind_fuel; [apply IHl; lia|]. intros x _. apply bind_fuel; [apply expect_fuel|discriminate].
  - destruct ts as [|t r]; [discriminate|]. cbn [length] in Hn.
    destruct (_ || _ || _).
    { destruct k; try discriminate. apply bind_fuel; [apply IHl; cbn [length]; lia|discriminate]. }
    destruct (cat_assignment t).
    { apply bind_fuel; [apply IHl; lia|]. intros y _. apply bind_fuel; [apply assign_fuel|discriminate]. }
    destruct (ttype_eqb _ PARENTHESIS_OPEN).
    { apply bind_fuel; [apply find_balanced_fuel|]. intros closed _.
      apply bind_fuel; [|intros l _; apply bind_fuel; [apply call_fuel|discriminate]].
      apply args_fuel; [lia|intros; apply IHl; lia|]. intros ts q rest E. apply Ll in E. lia. }
    destruct (ttype_eqb _ BRACKET_OPEN); [discriminate|].
    destruct (_ || _); [|discriminate]. apply bind_fuel; [apply step_fuel|discriminate].
  - destruct (str_eqb s _).
    { apply bind_fuel; [apply expect_fuel|]. intros _ _. apply bind_fuel; [apply type_name_fuel|]. intros x E.
      apply type_name_ok in E as (u & r2 & ? & E & _ & ->).
      pose proof (tail_length ts). apply (f_equal length) in E. cbn [length] in E.
      apply bind_fuel; [apply expect_fuel|]. intros _ _.
      apply bind_fuel; [apply expect_fuel|]. intros _ _.
      pose proof (tail_length r2). pose proof (tail_length (tail r2)).
      apply bind_fuel; [apply IHl; lia|]. intros y _.
      apply bind_fuel; [apply expect_fuel|]. intros _ _. apply bind_fuel; [apply cast_fuel|discriminate]. }
    destruct (str_eqb s _).
    { apply bind_fuel; [apply expect_fuel|]. intros _ _. pose proof (tail_length ts).
      apply bind_fuel; [apply IHl; lia|]. intros y _. apply bind_fuel; [apply expect_fuel|discriminate]. }
    destruct (_ || _); discriminate.
Qed.

(** ** More fuel changes nothing *)
Lemma bind_mono {A B} (e e' : res A) (f f' : A -> res B) r : r <> Fuel -> rbind e f = r ->
  (forall x, e = x -> x <> Fuel -> e' = x) -> (forall a, e = Ok a -> f a = r -> f' a = r) -> rbind e' f' = r.
Proof.
  intros Hr H H1 H2. destruct e eqn:E; cbn [rbind] in H.
  - rewrite (H1 (Ok a) eq_refl ltac:(discriminate)). cbn [rbind]. apply H2; auto.
  - rewrite (H1 _ eq_refl ltac:(discriminate)). exact H.
  - rewrite (H1 _ eq_refl ltac:(discriminate)). exact H.
  - congruence.
Qed.

Lemma args_mono ex ex' m : (forall ts r, r <> Fuel -> ex ts = r -> ex' ts = r) ->
  forall closed tmp r, r <> Fuel -> args_loop ex m closed tmp = r -> args_loop ex' (S m) closed tmp = r.
Proof.
  intros He. induction m as [|m IH]; intros closed tmp r Hr H; [cbn in H; congruence|].
  cbn [args_loop] in H. rewrite <- H in Hr. rewrite <- H. clear H r.
  remember (S m) as m1. cbn [args_loop]. destruct (_ =? _)%nat; [reflexivity|].
  eapply bind_mono; [exact Hr|reflexivity|intros; apply He; assumption|].
  intros [a tmp1] Ea H. rewrite <- H. rewrite <- H in Hr. clear H Ea.
  destruct (_ <? _)%nat; [reflexivity|]. destruct (_ =? _)%nat; [reflexivity|].
  eapply bind_mono; [exact Hr|reflexivity|auto|]. intros tmp2 E2 H. rewrite <- H. rewrite <- H in Hr. clear H.
  destruct (_ <? _)%nat; [reflexivity|]. destruct tmp2 as [|u tmp3]; [reflexivity|].
  eapply bind_mono; [exact Hr|reflexivity| |auto]. intros x Ex Hx. subst m1. apply IH; auto.
Qed.

Ltac mono IH := repeat first
  [ reflexivity
  | assumption
  | apply IH; [assumption|reflexivity]
  | match goal with
    | Hr : ?r <> Fuel |- rbind _ _ = ?r => eapply bind_mono; [exact Hr|reflexivity| |];
        [let x := fresh in let E := fresh in intros x E ?; first [exact E|rewrite <- E in *; clear E x]
        |let a := fresh "a" in let E := fresh in let H := fresh in intros a E H; rewrite <- H in *; clear H]
    end
  | match goal with |- match ?e with _ => _ end = _ => destruct e eqn:? end
  | match goal with |- (if ?e then _ else _) = _ => destruct e end ].

Theorem more_fuel n : forall w ts r, r <> Fuel -> parse n w ts = r -> parse (S n) w ts = r.
Proof.
  induction n as [|n IH]; intros w ts r Hr H; [cbn in H; congruence|].
  cbn [Parse_Model.parse] in H. rewrite <- H in Hr. rewrite <- H. clear H r.
  remember (S n) as n1. destruct w; cbn [Parse_Model.parse].
  7: { destruct ts as [|t r]; [reflexivity|]. destruct (_ || _ || _); [mono IH|]. destruct (cat_assignment t); [mono IH|].
       destruct (ttype_eqb _ PARENTHESIS_OPEN); [|mono IH].
       eapply bind_mono; [exact Hr|reflexivity|auto|]. intros closed Ec H. rewrite <- H. rewrite <- H in Hr. clear H.
       eapply bind_mono; [exact Hr|reflexivity| |auto]. intros y Ey Hy. subst n1. 
       apply (args_mono (parse n (WLevel 3))); auto. }
  all: mono IH.
Qed.

Corollary more_fuel_le n m w ts r : (n <= m)%nat -> r <> Fuel -> parse n w ts = r -> parse m w ts = r.
Proof. intros L. induction L; intros; auto. apply more_fuel; auto. Qed.
End Ends.
