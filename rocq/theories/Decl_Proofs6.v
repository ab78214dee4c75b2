(** The reader of declarations ends, and what it accepts is sound. *)
From Verif Require Import Base Base_Proofs Text_Model TypeTable Tok_Model Parse_Model Parse_Spec Parse_Brackets Enum_Model Enum_Spec
  Enum_Proofs Enum_Props Decl_Model Decl_Spec Decl_Proofs Decl_Proofs5.
From Coq Require Import Sorting.Sorted.

(** ** No reader runs for ever *)
Lemma rb_no {A B} (x : res A) (f : A -> res B) : x <> Fuel -> (forall a, x = Ok a -> f a <> Fuel) -> rbind x f <> Fuel.
Proof. destruct x; cbn; try done. auto. Qed.
Ltac rbn x E := apply rb_no; [|intros x E].
Lemma word_no {A} ty (conv : str -> A) d ts : parse_word ty conv d ts <> Fuel.
Proof. unfold parse_word. destruct ts as [|t ts]; [done|]. by destruct (is t ty). Qed.
Lemma access_no d ts : parse_access d ts <> Fuel.
Proof. unfold parse_access. destruct ts as [|t ts]; [done|]. by destruct (_ || _). Qed.
Lemma exceptions_no d ts : parse_exceptions d ts <> Fuel.
Proof. unfold parse_exceptions. destruct ts as [|t ts]; [done|]. by destruct (to_throwing _). Qed.
Lemma next_no ts : next ts <> Fuel.
Proof. by destruct ts. Qed.
Lemma expect_no ty ts : expect_at ty ts <> Fuel.
Proof. destruct ts; [done|]. cbn. by destruct (is _ _). Qed.
Lemma identify_no' acc : forall ts, identify_loop acc ts <> Fuel.
Proof.
  intros ts. remember (length ts) as n eqn:En. assert (Hn : (length ts <= n)%nat) by lia. clear En. revert acc ts Hn.
  induction n as [|n IH]; intros acc ts Hn; destruct ts as [|t ts]; try done; cbn [length] in Hn; [lia|]. cbn [identify_loop].
  destruct (is t IDENTIFIER); [|done]. destruct ts as [|s ts]; [done|]. destruct (is s OPERATOR_SCOPE); [|done].
  destruct ts as [|u ts]; [done|]. apply IH. cbn [length] in *. lia.
Qed.
Lemma identify_no ts : identify ts <> Fuel.
Proof. unfold identify. destruct ts as [|t ts]; [done|]. apply identify_no'. Qed.
Lemma design_no' : forall ts, design_loop ts <> Fuel.
Proof.
  intros ts. remember (length ts) as n eqn:En. assert (Hn : (length ts <= n)%nat) by lia. clear En. revert ts Hn.
  induction n as [|n IH]; intros ts Hn; destruct ts as [|t ts]; try done; cbn [length] in Hn; [lia|]. cbn [design_loop].
  destruct (is t COMPARE_GREATER); [done|]. destruct ts as [|c ts]; [done|]. cbn [length] in *.
  destruct (is c COLON).
  - destruct ts as [|k ts]; [done|]. destruct (is k IDENTIFIER); [|done]. destruct ts as [|m ts]; [done|]. cbn [length] in *.
    rbn y Ey; [|done]. destruct (is m COMMA); apply IH; cbn [length] in *; lia.
  - rbn y Ey; [|done]. destruct (is c COMMA); apply IH; cbn [length] in *; lia.
Qed.
Lemma design_no ts : collect_design ts <> Fuel.
Proof. unfold collect_design. destruct ts as [|t ts]; [done|]. destruct (is t _); [apply design_no'|done]. Qed.
Lemma type_no ts : parse_type ts <> Fuel.
Proof. unfold parse_type. rbn a Ea; [apply identify_no|]. rbn b Eb; [apply design_no|]. rbn c Ec; [apply word_no|done]. Qed.
Lemma value_no ts ty : parse_value ts ty <> Fuel.
Proof.
  unfold parse_value. destruct ts as [|m ts]; [done|]. destruct (if is m MATH_SUBTRACT then ts else m :: ts) as [|t ts1]; [done|].
  destruct (k_type t); repeat (match goal with |- (if ?b then _ else _) <> _ => destruct b end; try done).
Qed.
Lemma param_no ts : parse_param ts <> Fuel.
Proof.
  unfold parse_param. rbn a Ea; [apply type_no|]. rbn n En. { destruct (a.2); [done|]. by destruct (is _ _). }
  rbn m Em; [apply word_no|]. rbn ac Eac; [apply access_no|]. rbn d Ed.
  { destruct (ac.2); [done|]. destruct (is _ _); [|done]. case_bool_decide; [done|]. rbn v Ev; [apply value_no|]. rbn w Ew; [apply next_no|done]. }
  destruct (d.1), (ac.1); done.
Qed.
Lemma params_no fuel : forall ts, (length ts < fuel)%nat -> params_loop fuel ts <> Fuel.
Proof.
  induction fuel as [|fuel IH]; intros ts Hf; [lia|]. cbn [params_loop]. destruct ts as [|t ts]; [done|]. destruct (is t _); [done|].
  rbn p Ep; [apply param_no|]. destruct p as [p q]. apply param_len in Ep. cbn [fst snd length] in *. destruct q as [|c q]; [done|]. destruct (is c _); [done|].
  rbn x Ex; [|done]. apply IH. cbn in *. lia.
Qed.
Lemma parse_params_no ts : parse_params ts <> Fuel.
Proof. unfold parse_params. rbn u Eu; [apply expect_no|]. rbn r Er; [apply next_no|]. apply params_no. lia. Qed.
Lemma inherit_no fuel : forall repl k ts, (length ts < fuel)%nat -> inherit_loop fuel repl k ts <> Fuel.
Proof.
  induction fuel as [|fuel IH]; intros repl k ts Hf; [lia|].
  assert (Ha : forall repl k ts, (length ts <= fuel)%nat -> ancestor_of (inherit_loop fuel repl k) k ts <> Fuel).
  { clear - IH. intros repl k ts Hf. unfold ancestor_of. destruct ts as [|t ts]; [done|]. destruct (is t IDENTIFIER); [|done].
    rbn a Ea; [apply identify_no|]. rbn c Ec; [apply design_no|]. rbn x Ex; [|done]. destruct a, c. cbn [fst snd] in *.
    apply identify_len' in Ea. apply collect_design_len in Ec. apply IH. lia. }
  cbn [inherit_loop]. destruct ts as [|t ts]; [done|]. cbn [length] in Hf. destruct (relation_word _) as [k'|].
  - destruct repl; [done|]. apply Ha. lia.
  - destruct (is t COMMA); [apply IH|apply Ha]; cbn [length]; lia.
Qed.
Lemma inheritance_no ts : collect_inheritance ts <> Fuel.
Proof. unfold collect_inheritance. destruct ts as [|t ts]; [done|]. destruct (is t _); [apply inherit_no; lia|done]. Qed.
Lemma collect_loop_no : forall ts n, collect_loop n ts <> Fuel.
Proof. induction ts as [|t ts IH]; intros n; cbn [collect_loop]; [done|]. destruct (_ || _); [|done]. rbn x Ex; [apply IH|done]. Qed.
Lemma scope_no ts : parser_collect_scope ts <> Fuel.
Proof.
  unfold parser_collect_scope. destruct ts as [|t ts]; [done|]. rbn x Ex. { cbn. by destruct (ttype_eqb _ _). }
  apply collect_loop_no.
Qed.
Lemma path_no sep : forall ts, path_loop sep ts <> Fuel.
Proof.
  intros ts. remember (length ts) as n eqn:En. assert (Hn : (length ts <= n)%nat) by lia. clear En. revert ts Hn.
  induction n as [|n IH]; intros ts Hn; destruct ts as [|t ts]; try done; cbn [length] in Hn; [lia|]. cbn [path_loop].
  destruct (is t IDENTIFIER); [|done]. destruct ts as [|s ts]; [done|]. destruct (is s OPERATOR_SCOPE); [|done].
  rbn y Ey; [|done]. cbn [length] in *. apply IH; lia.
Qed.
Lemma names_no : forall ts, names_loop ts <> Fuel.
Proof.
  intros ts. remember (length ts) as n eqn:En. assert (Hn : (length ts <= n)%nat) by lia. clear En. revert ts Hn.
  induction n as [|n IH]; intros ts Hn; destruct ts as [|t ts]; try done; cbn [length] in Hn; [lia|]. cbn [names_loop].
  destruct (is t IDENTIFIER); [|done]. destruct ts as [|s ts]; [done|]. rbn y Ey; [|done].
  cbn [length] in *. destruct (is s OPERATOR_SCOPE); apply IH; cbn [length] in *; lia.
Qed.
Lemma enum_expect ty ts : Enum_Model.expect ty ts <> Fuel.
Proof. destruct ts; [done|]. cbn. by case_bool_decide. Qed.
Lemma enum_expect_len ty ts t r : Enum_Model.expect ty ts = Ok (t, r) -> ts = t :: r.
Proof. destruct ts; [done|]. cbn. case_bool_decide; [|done]. by intros [= -> ->]. Qed.
Lemma enum_entry_len v ts n z r : enum_entry v ts = Ok (n, z, r) -> (length r < length ts)%nat.
Proof.
  unfold enum_entry. intros H. rb H a Ea. destruct a as [t q]. apply enum_expect_len in Ea as ->. destruct q as [|t1 q]; [done|]. case_bool_decide.
  - rb H b Eb. destruct b as [t2 q2]. apply enum_expect_len in Eb as ->. injection H as _ _ <-. cbn. lia.
  - rb H x Ex. injection H as _ _ <-. cbn. lia.
Qed.
Lemma enum_entry_no v ts : enum_entry v ts <> Fuel.
Proof.
  unfold enum_entry. rbn a Ea; [apply enum_expect|]. destruct a as [t q]. destruct q as [|t1 q]; [done|]. case_bool_decide.
  - rbn b Eb; [apply enum_expect|]. by destruct b.
  - rbn x Ex; [|done]. unfold succ64. by repeat case_match.
Qed.
Lemma enum_no fuel : forall v acc ts, (length ts < fuel)%nat -> enum_loop fuel v acc ts <> Fuel.
Proof.
  induction fuel as [|fuel IH]; intros v acc ts Hf; [lia|]. cbn [enum_loop]. destruct ts as [|t ts]; [done|]. rbn e Ee; [apply enum_entry_no|].
  destruct e as [[n z] r]. apply enum_entry_len in Ee. destruct (z <=? v)%Z; [by destruct r|]. destruct (existsb _ _); [done|].
  destruct r as [|c r]; [done|]. case_bool_decide; [|by case_bool_decide]. destruct r as [|c' r]; [done|]. apply IH. cbn [length] in *. lia.
Qed.
Lemma create_member_no sc v l f t n ts : create_member sc v l f t n ts <> Fuel.
Proof.
  unfold create_member. rbn m Em; [apply word_no|]. rbn a Ea; [apply access_no|]. destruct (_ && _); [by destruct (a.2)|].
  rbn d Ed. { destruct (a.2); [done|]. destruct (is _ _); [|done]. rbn w Ew; [apply value_no|]. rbn r2 Er; [apply next_no|done]. }
  rbn u Eu; [apply expect_no|done].
Qed.
Lemma create_method_no i sc v l f t n ts : create_method i sc v l f t n ts <> Fuel.
Proof.
  unfold create_method. destruct (_ && _); [done|]. rbn ps Eps; [apply parse_params_no|]. rbn q Enx; [apply next_no|]. rbn m Em; [apply word_no|].
  rbn e Ee; [apply exceptions_no|]. destruct (e.2); [done|]. destruct (_ && _ && _); [done|]. rbn b Eb; [|by destruct (match sc with Space => _ | _ => _ end)].
  destruct (is _ _). { destruct (match l with Abstract => true | _ => false end); [done|]. rbn c Ec; [apply scope_no|done]. }
  by destruct (_ && _).
Qed.
Lemma create_mm_no i sc ts : create_member_or_method i sc ts <> Fuel.
Proof.
  unfold create_member_or_method. rbn v Ev; [apply word_no|]. rbn l El. { destruct i; [done|]. destruct sc; [done|]. apply word_no. }
  rbn f Ef; [apply word_no|]. rbn t Et; [apply type_no|]. destruct (t.2) as [|n q]; [done|]. destruct q as [|x q]; [done|].
  destruct (is x _); [apply create_method_no|apply create_member_no].
Qed.
Lemma create_enum_no ts : create_enum ts <> Fuel.
Proof.
  unfold create_enum. rbn v Ev; [apply word_no|]. rbn f Ef; [apply word_no|]. destruct (f.2) as [|w q]; [done|]. destruct (negb _); [by destruct q|].
  rbn t Et; [apply type_no|]. destruct (td_args _); [|by destruct (t.2)]. rbn b Eb; [apply scope_no|]. rbn es Ees; [apply enum_no; lia|done].
Qed.
Lemma create_import_no ts : create_import ts <> Fuel.
Proof.
  unfold create_import. rbn u Eu; [apply expect_no|]. rbn q Enx; [apply next_no|]. destruct q as [|t q]; [done|]. rbn p Ep; [apply path_no|].
  rbn w Ew; [apply expect_no|done].
Qed.
Lemma skip_no ty ts : skip ty ts <> Fuel.
Proof. by destruct ts. Qed.
Lemma at_word_no w ts : at_word w ts <> Fuel.
Proof. by destruct ts. Qed.
Lemma check_loop_no e : forall ts, check_loop ts e <> Fuel.
Proof.
  induction e as [|[ty s] e IH]; intros ts; [by destruct ts|]. destruct ts as [|t ts]; [done|]. cbn [check_loop].
  cbv zeta.  generalize (if k_opt t then ts else t :: ts); intros l; destruct l; [done|]. destruct (negb _); [done|]. destruct (_ && _); [done|]. apply IH.
Qed.
Lemma create_one_no go sc i ts : (forall sc i b, (length b < length ts)%nat -> go sc i b <> Fuel) -> create_one go sc i ts <> Fuel.
Proof.
  intros Hgo. unfold create_one. rbn o Eo.
  { unfold is_object. rbn a Ea; [apply skip_no|]. rbn b Eb; [apply skip_no|]. rbn c Ec; [apply skip_no|]. apply at_word_no. }
  destruct o.
  { rbn v Ev; [apply word_no|]. rbn f Ef; [apply word_no|]. rbn l El; [apply word_no|]. destruct v as [v q1], f as [f q2], l as [l q3].
    cbn [fst snd] in *. apply word_len in Ev, Ef, El.
    destruct l; try (by destruct q3); (rbn q Enx; [apply next_no|]; rbn t Et; [apply type_no|]; rbn an Ean; [apply inheritance_no|]; destruct t as [t q5], an as [an q6];
      cbn [fst snd] in *; apply next_len in Enx; apply type_len in Et; apply inheritance_len in Ean; destruct q6 as [|x q6]; [done|]; destruct (negb _ && negb _);
      [rbn b Eb; [apply scope_no|]; destruct b as [b q7]; apply scope_len in Eb; cbn [fst snd] in *|];
      (destruct (_ && _); [done|]); (destruct (td_mut t) eqn:Em; [done|..]); try (rbn ds Eds; [apply Hgo; lia|]); done). }
  rbn e Ee; [apply check_loop_no|]. destruct e. { rbn x Ex; [apply create_enum_no|done]. }
  rbn it Eit. { unfold is_interface. rbn a Ea; [apply skip_no|]. rbn b Eb; [apply skip_no|]. apply at_word_no. }
  destruct it.
  { rbn v Ev; [apply word_no|]. rbn f Ef; [apply word_no|]. rbn q Enx; [apply next_no|]. rbn t Et; [apply type_no|]. destruct v as [v q1], f as [f q2], t as [t q4].
    cbn [fst snd] in *. apply word_len in Ev, Ef. apply next_len in Enx. apply type_len in Et. destruct (td_mut t) eqn:Em; [by destruct q4|..];
    (rbn an Ean; [apply inheritance_no|]; rbn u Eu; [apply expect_no|]; destruct an as [an q5]; cbn [fst snd] in *; apply inheritance_len in Ean; destruct (negb _); [done|];
     rbn b Eb; [apply scope_no|]; destruct b as [b q7]; apply scope_len in Eb; cbn [fst snd] in *; rbn ds Eds; [apply Hgo; lia|done]). }
  rbn m Em; [apply check_loop_no|]. destruct m. { rbn x Ex; [apply create_import_no|done]. }
  rbn n En. { unfold is_namespace. rbn a Ea; [apply skip_no|]. rbn b Eb; [apply skip_no|]. apply at_word_no. }
  destruct n.
  { destruct sc; [|done]. rbn v Ev; [apply word_no|]. rbn f Ef; [apply word_no|]. rbn q Enx; [apply next_no|]. rbn p Ep; [apply names_no|]. rbn b Eb; [apply scope_no|].
    destruct v as [v q1], f as [f q2], p as [p q4], b as [b q5]. cbn [fst snd] in *.
    apply word_len in Ev, Ef. apply next_len in Enx. apply names_len in Ep. apply scope_len in Eb. rbn ds Eds; [apply Hgo; lia|done]. }
  rbn x Ex; [apply create_mm_no|done].
Qed.
Lemma generate_no fuel : forall sc i ts, (length ts < fuel)%nat -> generate fuel sc i ts <> Fuel.
Proof.
  induction fuel as [|fuel IH]; intros sc i ts Hf; [lia|]. cbn [generate]. destruct ts as [|t ts]; [done|]. destruct (is t _); [done|].
  rbn x Ex. { apply create_one_no. intros sc' i' b Hb. apply IH. lia. }
  destruct x as [[d i'] q]. apply create_one_len in Ex. rbn r Er; [apply next_no|]. apply next_len in Er. cbn [fst snd] in *. rbn ds Eds; [|done].
  apply IH. lia.
Qed.

(** ** Soundness *)
Definition calm (sc : place) (i : bool) : Prop := sc = Space -> i = false.
Definition sound_read (sc : place) (i : bool) (ds : list decl) (i' : bool) : Prop :=
  Forall (sound sc) ds /\ (i = false -> i' = false) /\ (forallb interface_free ds = true -> i' = i /\ (i = true -> Forall bodiless ds)).
Definition good (go : place -> bool -> list token -> res (list decl * bool)) : Prop :=
  forall sc i ts ds i', calm sc i -> go sc i ts = Ok (ds, i') -> sound_read sc i ds i'.
Lemma mut_known m : match m with MUnknown => true | _ => false end = false -> m = Const \/ m = Modify.
Proof. destruct m; [done|auto..]. Qed.
Lemma sound_enum_of ts d r sc : create_enum ts = Ok (d, r) -> sound sc d /\ bodiless d /\ interface_free d = true.
Proof.
  unfold create_enum. intros H. rb H v Ev. rb H f Ef. destruct (f.2) as [|w q]; [done|]. destruct (negb _); [by destruct q|]. rb H t Et.
  destruct (td_args t.1) eqn:Ea; [|by destruct (t.2)]. rb H b Eb. rb H es Ees. injection H as <- _. apply C40_increasing in Ees as (A & B & C & D).
  split; [|done]. by constructor.
Qed.
Lemma sound_member_of i sc v l f t n ts d r : calm sc i -> (sc = Space -> l = Static) -> (i = true -> l = Abstract) ->
  create_member sc v l f t n ts = Ok (d, r) -> sound sc d /\ (i = true -> bodiless d) /\ interface_free d = true.
Proof.
  intros Hc Hl Hi. unfold create_member. intros H. rb H m Em. rb H a Ea. destruct (place_const sc && negb (is_const m.1)) eqn:Ec; [by destruct (a.2)|].
  rb H x Ex. rb H u Eu. injection H as <- _. split; [|done]. constructor; [|done|].
  - intros Hp. rewrite Hp in Ec. cbn in Ec. destruct (m.1); done.
  - destruct (a.2) as [|y q]; [done|]. destruct (is y ASSIGN).
    + rb Ex w Ew. rb Ex r2 Er. injection Ex as <-. cbn. left. destruct w. by eapply parse_value_fits.
    + injection Ex as <-. cbn [fst]. right. destruct (str_eqb (td_name t) t_string) eqn:E; [left|right].
      * split; [done|]. by apply eqb_yes.
      * split; [done|]. by apply bool_decide_eq_false in E.
Qed.
Lemma sound_method_of i sc v l f t n ts d r : calm sc i -> (sc = Space -> l = Static) -> (i = true -> l = Abstract) ->
  create_method i sc v l f t n ts = Ok (d, r) -> sound sc d /\ (i = true -> bodiless d) /\ interface_free d = true.
Proof.
  intros Hc Hl Hi. unfold create_method. intros H. destruct (i && _); [done|]. rb H ps Eps. rb H q Enx. rb H m Em. rb H e Ee.
  destruct (e.2) as [|x q2] eqn:Ee2; [done|]. destruct (negb (is_structor sc n) && place_const sc && negb (is_const m.1)) eqn:Ec; [done|]. rb H b Eb.
  destruct (match sc with Space => _ | _ => _ end); [done|]. injection H as <- _.
  assert (Hb : (b.1 = None -> l = Abstract \/ f = NotImplemented) /\ (forall b', b.1 = Some b' -> l <> Abstract /\ nested BRACKET_CURLY_OPEN BRACKET_CURLY_CLOSE b')).
  { destruct (is x BRACKET_CURLY_OPEN).
    - destruct (match l with Abstract => true | _ => false end) eqn:El; [done|]. rb Eb c Ecc. injection Eb as <-. cbn. split; [done|]. intros b' [= <-].
      split; [by destruct l|]. destruct c. apply parser_collect_iff in Ecc as (? & ? & ? & _ & _ & _ & _ & Hn). done.
    - destruct (negb (match l with Abstract => true | _ => false end) && negb (match f with NotImplemented => true | _ => false end)) eqn:El; [done|]. injection Eb as <-. cbn. split; [intros _|done]. destruct l; try (by left); destruct f; try done; by right. }
  destruct Hb as [Hb1 Hb2]. split; [|split; [|done]].
  - constructor; [|done| |done|done].
    + intros Hp. rewrite Hp in Ec. destruct (is_structor sc n) eqn:Es; cbn in Ec.
      * right. unfold is_structor in Es. destruct sc; [done|]. apply orb_true_iff in Es as [Es|Es]; apply eqb_yes in Es; [by left|by right].
      * left. destruct (m.1); done.
    + destruct ps. by eapply parse_params_sound.
  - intros ->. cbn. split; [by apply Hi|]. destruct (b.1) as [b'|] eqn:E; [|done]. destruct (Hb2 _ eq_refl) as [Hx _]. by destruct (Hx (Hi eq_refl)).
Qed.
Lemma sound_mm i sc ts d r : calm sc i -> create_member_or_method i sc ts = Ok (d, r) -> sound sc d /\ (i = true -> bodiless d) /\ interface_free d = true.
Proof.
  intros Hc. unfold create_member_or_method. intros H. rb H v Ev. rb H l El. rb H f Ef. rb H t Et. destruct (t.2) as [|n q]; [done|].
  destruct q as [|x q]; [done|].
  assert (Hl : (sc = Space -> l.1 = Static) /\ (i = true -> l.1 = Abstract)).
  { destruct i; [|destruct sc; [|done]]; injection El as <-; (split; [|done]); [|done]. intros E. by specialize (Hc E). }
  destruct Hl as [Hl1 Hl2]. destruct (is x PARENTHESIS_OPEN); [by eapply sound_method_of|by eapply sound_member_of].
Qed.
Lemma sound_one go sc i ts d i' r : good go -> calm sc i -> create_one go sc i ts = Ok (d, i', r) ->
  sound sc d /\ (i = false -> i' = false) /\ (interface_free d = true -> i' = i /\ (i = true -> bodiless d)).
Proof.
  intros Hgo Hc. unfold create_one. intros H. rb H o Eo. destruct o.
  { rb H v Ev. rb H f Ef. rb H l El.
    assert (Hl : l.1 = Abstract \/ l.1 = Final \/ l.1 = Virtual).
    { destruct (l.1) eqn:E; auto; by destruct (l.2). }
    assert (H' : (let! r0 := next l.2
     in let! t := parse_type r0
        in let! an := collect_inheritance t.2
           in match an.2 with
              | [] => UB
              | x :: _ =>
                  if negb (negb (bool_decide (an.1 = [])) && forallb is_replicates an.1) && negb (is x SEMICOLON)
                  then
                   let! b := parser_collect_scope an.2
                   in (if existsb is_extends an.1 && is_const (td_mut t.1)
                       then Throw "ConstCorrectnessViolated"
                       else
                        if match td_mut t.1 with MUnknown => true | _ => false end
                        then Throw "SyntaxError"
                        else
                         let! ds := go (Blue (is_const (td_mut t.1))) i b.1
                         in Ok (DObject v.1 f.1 l.1 t.1 an.1 (Some ds.1), ds.2, b.2))
                  else
                   if existsb is_extends an.1 && is_const (td_mut t.1)
                   then Throw "ConstCorrectnessViolated"
                   else
                    if match td_mut t.1 with MUnknown => true | _ => false end
                    then Throw "SyntaxError"
                    else Ok (DObject v.1 f.1 l.1 t.1 an.1 None, i, an.2)
              end) = Ok (d, i', r)) by (destruct Hl as [E|[E|E]]; rewrite E in H |- *; exact H).
    clear H. rb H' q Enx. rb H' t Et. rb H' an Ean. destruct (an.2) as [|x q2]; [done|].
    assert (Hconst : existsb is_extends an.1 && is_const (td_mut t.1) = false -> td_mut t.1 = Const -> Forall (fun a => an_kind a <> Extends) an.1).
    { intros Hx Hm. rewrite Hm in Hx. cbn in Hx. rewrite andb_true_r in Hx. clear - Hx. induction (an.1) as [|a l0 IH]; constructor; cbn in Hx;
        apply orb_false_iff in Hx as [Hx1 Hx2]; [|by apply IH]. unfold is_extends in Hx1. intros E. by rewrite E in Hx1. }
    destruct (_ && negb (is x SEMICOLON)).
    - rb H' b Eb. destruct (existsb is_extends an.1 && is_const (td_mut t.1)) eqn:E1; [done|].
      destruct (match td_mut t.1 with MUnknown => true | _ => false end) eqn:E2; [done|]. apply mut_known in E2. rb H' ds Eds. injection H' as <- <- _.
      destruct ds as [ds j]. cbn [fst snd]. apply Hgo in Eds as (A & B & C); [|done]. split_and!; [|done|].
      + constructor; try done; [by auto|]. intros l' [= <-]. done.
      + intros Hf. cbn in Hf. split; [|done]. by apply C.
    - destruct (existsb is_extends an.1 && is_const (td_mut t.1)) eqn:E1; [done|].
      destruct (match td_mut t.1 with MUnknown => true | _ => false end) eqn:E2; [done|]. apply mut_known in E2. injection H' as <- <- _.
      split_and!; [|done|done]. constructor; try done. by auto. }
  rb H e Ee. destruct e.
  { rb H x Ex. injection H as <- <- _. destruct x as [x y]. apply (sound_enum_of _ _ _ sc) in Ex as (A & B & C). done. }
  rb H it Eit. destruct it.
  { rb H v Ev. rb H f Ef. rb H q Enx. rb H t Et.
    destruct (match td_mut t.1 with MUnknown => true | _ => false end) eqn:E2; [by destruct (t.2)|]. apply mut_known in E2.
    rb H an Ean. rb H u Eu. destruct (negb (forallb is_implements an.1)) eqn:E3; [done|]. rb H b Eb. rb H ds Eds. injection H as <- <- _.
    destruct ds as [ds j]. cbn [fst snd]. apply Hgo in Eds as (A & B & C); [|done]. split_and!; [|done|done].
    constructor; try done.
    - apply negb_false_iff in E3. clear - E3. induction (an.1) as [|a l0 IH]; constructor; cbn in E3; apply andb_true_iff in E3 as [Hx1 Hx2]; [|by apply IH].
      unfold is_implements in Hx1. by destruct (an_kind a).
    - intros Hf. by apply C. }
  rb H m Em. destruct m.
  { rb H x Ex. injection H as <- <- _. unfold create_import in Ex. rb Ex u Eu. rb Ex q Enx. destruct q as [|t q]; [done|]. rb Ex p Ep. rb Ex w Ew.
    injection Ex as <-. cbn [fst]. split_and!; [constructor|done|done]. }
  rb H n En. destruct n.
  { destruct sc; [|done]. rb H v Ev. rb H f Ef. rb H q Enx. rb H p Ep. rb H b Eb. rb H ds Eds. injection H as <- <- _.
    destruct ds as [ds j]. cbn [fst snd]. apply Hgo in Eds as (A & B & C); [|done]. split_and!; [by constructor|done|].
    cbn [interface_free]. intros Hf. split; [|done]. by apply C. }
  rb H x Ex. injection H as <- <- _. destruct x as [x y]. apply sound_mm in Ex as (A & B & C); done.
Qed.
Lemma sound_generate fuel : good (generate fuel).
Proof.
  induction fuel as [|fuel IH]; intros sc i ts ds i' Hc; [done|]. cbn [generate]. destruct ts as [|t ts].
  { intros [= <- <-]. split_and!; [constructor|done|]. intros _. split; [done|constructor]. }
  destruct (is t ENDOFFILE). { intros [= <- <-]. split_and!; [constructor|done|]. intros _. split; [done|constructor]. }
  intros H. rb H x Ex. destruct x as [[d j] q]. apply (sound_one _ _ _ _ _ _ _ IH Hc) in Ex as (A & B & C). cbn [fst snd] in *.
  rb H r Er. rb H es Ees. destruct es as [es j']. injection H as <- <-. cbn [fst snd] in *.
  apply IH in Ees as (A' & B' & C'). 2: { intros E. apply B, Hc, E. }
  split_and!.
  - by constructor.
  - auto.
  - cbn [forallb]. intros Hf. apply andb_true_iff in Hf as [Hf1 Hf2]. destruct (C Hf1) as [-> C1]. destruct (C' Hf2) as [-> C2]. split; [done|].
    intros Hi. constructor; auto.
Qed.
