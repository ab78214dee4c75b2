(** Every text the reader accepts is one of the grammar; reading ends; more fuel changes nothing. *)
From Coq Require Import Floats.SpecFloat.
From Verif Require Import Base Base_Proofs Text_Model Tok_Model TypeTable TypeSys_Model Value_Model Parse_Model
  Parse_Spec Parse_Brackets Parse_Complete Parse_Sound.

Ltac ib H := match type of H with
  | rbind ?e _ = Ok _ => let E := fresh "E" in destruct e eqn:E; cbn [rbind] in H; try discriminate H
  | (let '(_, _) := ?x in _) = _ => destruct x
  end.

Lemma expect_ok ty ts u : expect ty ts = Ok u -> exists t r, ts = t :: r /\ k_type t = ty.
Proof.
  unfold expect. destruct ts as [|t r]; [discriminate|]. destruct (ttype_eqb (k_type t) ty) eqn:E; [|discriminate].
  intros _. exists t, r. split; [reflexivity|apply ttype_eqb_spec; exact E].
Qed.
Lemma resolve_ok env ts x : resolve_name env ts = Ok x ->
  exists t r, ts = t :: r /\ named env (k_text t) = Ok (fst x) /\ snd x = r.
Proof.
  unfold resolve_name. destruct ts as [|t r]; [discriminate|]. intros H. exists t, r. split; [reflexivity|].
  unfold named. destruct (pe_name env (k_text t)); [|discriminate]. destruct r; [discriminate|].
  destruct (ttype_eqb _ _); [discriminate|]. injection H as <-. split; reflexivity.
Qed.
Lemma type_name_ok env ts x : type_name env ts = Ok x ->
  exists t r a, ts = t :: r /\ named env (k_text t) = Ok (KType (fst x) a) /\ snd x = r.
Proof.
  unfold type_name. intros H. ib H. apply resolve_ok in E as (t & r & -> & E1 & <-). destruct a as [[] r]; try discriminate.
  cbn [fst snd] in *. injection H as <-. exists t, r, atomic. split; [reflexivity|split; [exact E1|reflexivity]].
Qed.
Lemma literal_const io ty s v : literal io ty s = Some v -> ty ∈ const_types.
Proof. intros H. apply ty_in_spec. destruct ty; try discriminate H; reflexivity. Qed.

Lemma find_next_ok start ty ts : forall s, Forall (fun t => k_type t <> NIL) ts -> find_next start ty ts = Ok s ->
  exists j t r, ts = j ++ t :: r /\ s = t :: r /\ k_type t = ty.
Proof.
  induction ts as [|t ts IH]; intros s Hf H; [discriminate|]. cbn [find_next] in H. inversion Hf; subst.
  destruct (ttype_eqb (k_type t) ty) eqn:E.
  - injection H as <-. exists [], t, ts. apply ttype_eqb_spec in E. auto.
  - destruct (ttype_eqb (k_type t) NIL) eqn:E2; [apply ttype_eqb_spec in E2; congruence|].
    destruct (IH s) as (j & u & r & -> & -> & Hu); auto. exists (t :: j), u, r. auto.
Qed.
Lemma find_next_length start ty ts : forall s, (length ts <= length start)%nat -> find_next start ty ts = Ok s ->
  (length s <= length start)%nat.
Proof.
  induction ts as [|t ts IH]; intros s Hf H; [discriminate|]. cbn [find_next] in H. cbn in Hf.
  destruct (ttype_eqb (k_type t) ty); [injection H as <-; cbn; lia|].
  destruct (ttype_eqb (k_type t) NIL); [injection H as <-; cbn; lia|]. apply IH in H; lia.
Qed.

(** ** Accepted texts are in the grammar *)
Section Accepts.
Context (env : penv).
Notation parse := (parse env).
Notation elab := (elab env).
Definition good (t : token) : Prop := well_made t /\ k_type t <> NIL.

Definition reads_as (p : place) (front ts : list token) (q : pexpr) (rest : list token) : Prop :=
  exists ts1 e x, ts = ts1 ++ rest /\ denotes false p e (front ++ ts1) x /\ elab x = Ok q.

Definition sound (w : what) (ts : list token) (q : pexpr) (rest : list token) : Prop :=
  match w with
  | WLevel k => reads_as (Lvl k) [] ts q rest
  | WLoop k a => forall e0 ts0 x0, denotes false (Lvl k) e0 ts0 x0 -> elab x0 = Ok a -> reads_as (Lvl k) ts0 ts q rest
  | WInfix => reads_as Infix [] ts q rest
  | WPostfix a => forall e0 ts0 x0, denotes false Prefixed e0 ts0 x0 -> elab x0 = Ok a -> reads_as Infix ts0 ts q rest
  | WRepeat a => forall e0 ts0 x0, denotes false Suffixed e0 ts0 x0 -> elab x0 = Ok a -> reads_as Suffixed ts0 ts q rest
  | WTerm => reads_as Term [] ts q rest
  | WName x k => forall t, k_type t = IDENTIFIER -> k_text t = x -> named env x = Ok k -> reads_as Term [t] ts q rest
  | WWord s => forall t, k_type t = KEYWORD -> k_text t = s -> reads_as Term [t] ts q rest
  end.

Lemma args_sound ex m : (forall ts q rest, Forall good ts -> ex ts = Ok (q, rest) -> reads_as (Lvl 3) [] ts q rest) ->
  forall c r body l, k_type c = PARENTHESIS_CLOSE -> Forall good (body ++ c :: r) ->
  args_loop ex m (c :: r) (body ++ c :: r) = Ok l ->
  exists xs, denotes_args false body xs /\ elab_args env xs = Ok l.
Proof.
  intros Hex. induction m as [|m IH]; intros c r body l Hc Hg H; [discriminate|]. cbn [args_loop] in H.
  assert (Len : forall (a b s : list token), a ++ s = b ++ s -> a = b) by (intros a b s; apply app_inv_tail).
  destruct (Nat.eqb_spec (length (body ++ c :: r)) (length (c :: r))) as [E|E].
  { injection H as <-. rewrite app_length in E. assert (body = []) by (destruct body; [reflexivity|cbn in E; lia]).
    subst. exists []. split; [constructor|reflexivity]. }
  ib H. destruct a as [q tmp1]. apply Hex in E0; [|exact Hg]. destruct E0 as (ts1 & e & x & Ets & D & EL). cbn [app] in D.
  destruct (Nat.ltb_spec (length tmp1) (length (c :: r))) as [L|L]; [discriminate|].
  assert (exists b, body = ts1 ++ b /\ tmp1 = b ++ c :: r) as (b & -> & ->).
  { clear - Ets L. revert ts1 Ets. induction body as [|u body IHb]; intros ts1 Ets.
    - cbn [app] in Ets. destruct ts1 as [|v ts1]; [exists []; auto|]. exfalso. 
      apply (f_equal length) in Ets. cbn in Ets, L. rewrite app_length in Ets. lia.
    - destruct ts1 as [|v ts1]; [exists (u :: body); auto|]. cbn in Ets. injection Ets as -> Ets.
      destruct (IHb ts1 Ets) as (b & -> & ->). exists b. auto. }
  destruct (Nat.eqb_spec (length (b ++ c :: r)) (length (c :: r))) as [E1|E1].
  { injection H as <-. rewrite app_length in E1. assert (b = []) by (destruct b; [reflexivity|cbn in E1; lia]). subst.
    rewrite app_nil_r. exists [x]. split; [econstructor; exact D|]. cbn [elab_args]. rewrite EL. reflexivity. }
  assert (Gb : Forall good (b ++ c :: r)) by (rewrite <- app_assoc in Hg; apply Forall_app in Hg as [_ Hg]; exact Hg).
  ib H. apply find_next_ok in E0 as (j & t & tmp3 & Ej & -> & Ht);
    [|eapply Forall_impl; [exact Gb|intros ? []; auto]].
  destruct (Nat.ltb_spec (length (t :: tmp3)) (length (c :: r))) as [L2|L2]; [discriminate|].
  ib H. injection H as <-.
  assert (exists b2, b = j ++ t :: b2 /\ tmp3 = b2 ++ c :: r) as (b2 & -> & ->).
  { clear - Ej L2 Ht Hc. revert j Ej. induction b as [|u b IHb]; intros j Ej.
    - exfalso. cbn [app] in Ej. destruct j as [|v j].
      + injection Ej as -> _. rewrite Hc in Ht. discriminate.
      + apply (f_equal length) in Ej. cbn in Ej, L2. rewrite app_length in Ej. cbn in Ej. lia.
    - destruct j as [|v j]; cbn in Ej; injection Ej as -> Ej; [exists b; auto|].
      destruct (IHb j Ej) as (b2 & -> & ->). exists b2. auto. }
  rewrite <- app_assoc in Gb. cbn [app] in Gb. apply Forall_app in Gb as [_ Gb]. inversion Gb as [|? ? _ Gb2]; subst.
  destruct (IH c r b2 a Hc Gb2 E0) as (xs & Dx & Ex).
  exists (x :: xs). split.
  - apply (da_more false e); [exact D|discriminate|exact Ht|exact Dx|discriminate].
  - cbn [elab_args]. rewrite EL. cbn [rbind]. fold (elab_args env). rewrite Ex. reflexivity.
Qed.

Lemma good_rest ts1 rest ts : Forall good ts -> ts = ts1 ++ rest -> Forall good rest.
Proof. intros H ->. apply Forall_app in H. tauto. Qed.

Theorem accepts n : forall w ts q rest, Forall good ts -> parse n w ts = Ok (q, rest) -> sound w ts q rest.
Proof.
  induction n as [|n IH]; intros w ts q rest G H; [discriminate|].
  assert (IH3 : forall ts q rest, Forall good ts -> parse n (WLevel 3) ts = Ok (q, rest) -> reads_as (Lvl 3) [] ts q rest)
    by (intros; apply (IH (WLevel 3)); assumption).
  assert (IHb : forall k ts q rest, Forall good ts -> parse n (match k with O => WInfix | S j => WLevel j end) ts = Ok (q, rest) ->
    exists ts1 e x, ts = ts1 ++ rest /\ denotes false (match k with O => Infix | S j => Lvl j end) e ts1 x /\ elab x = Ok q).
  { intros k ts' q' r' G' H'. apply IH in H'; [|exact G']. destruct k; exact H'. }
  destruct w; cbn [Parse_Model.parse] in H; cbn [sound].
  - (* WLevel *) ib H. destruct a as [a r1]. cbn [fst snd] in H. apply IHb in E as (t1 & e & x & -> & D & EL); [|exact G].
    assert (D' : denotes false (Lvl k) e t1 x) by (destruct k; [apply d_infix|apply d_level]; exact D).
    apply IH in H; [|apply Forall_app in G; tauto]. destruct (H _ _ _ D' EL) as (t2 & e2 & x2 & -> & D2 & E2).
    exists (t1 ++ t2), e2, x2. rewrite <- app_assoc. auto.
  - (* WLoop *) intros e0 ts0 x0 D0 E0. destruct ts as [|t r]; [discriminate|]. rewrite is_op_ops in H.
    destruct (ty_in (k_type t) (ops k)) eqn:Ho.
    + apply ty_in_spec in Ho. inversion G as [|? ? _ Gr]; subst. ib H. destruct a0 as [b r1]. cbn [fst snd] in H.
      apply IHb in E as (t1 & e & x & -> & D & EL); [|exact Gr]. ib H. rewrite node_tok in E.
      apply IH in H; [|apply Forall_app in Gr; tauto].
      assert (D' : denotes false (Lvl k) e (ts0 ++ t :: t1) (XBin k (k_type t) (k_text t) x0 x)).
      { destruct k; [apply (d_mul false e0)|apply (d_bin false k e0)]; auto; discriminate. }
      assert (E' : elab (XBin k (k_type t) (k_text t) x0 x) = Ok a0).
      { cbn [Parse_Spec.elab]. rewrite E0. cbn [rbind]. rewrite EL. cbn [rbind]. exact E. }
      destruct (H _ _ _ D' E') as (t2 & e2 & x2 & -> & D2 & E2).
      exists (t :: t1 ++ t2), e2, x2. cbn [app]. rewrite <- !app_assoc in *. cbn [app] in *. auto.
    + injection H as <- <-. exists [], e0, x0. rewrite app_nil_r. auto.
  - (* WInfix *) destruct ts as [|t r]; [discriminate|]. ib H. destruct a as [a r1]. cbn [fst snd] in H.
    assert (P : exists t1 e x, t :: r = t1 ++ r1 /\ denotes false Prefixed e t1 x /\ elab x = Ok a).
    { destruct (ty_in (k_type t) _) eqn:Et.
      - apply ty_in_spec in Et. ib E. ib E. injection E as <- <-. destruct a0 as [b r2]. cbn [fst snd] in *.
        rewrite sign_tok in E1. apply IH in E0 as (t1 & e & x & -> & D & EL); [|inversion G; assumption].
        exists (t :: t1), e, (XSign (k_type t) (k_text t) x). split; [reflexivity|]. split.
        + apply d_sign; [|exact D]. apply elem_of_cons in Et as [Et|Et]; [auto|].
          apply elem_of_cons in Et as [Et|Et]; [auto|inversion Et].
        + cbn [Parse_Spec.elab]. rewrite EL. exact E1.
      - destruct (ttype_eqb (k_type t) OPERATOR_NOT) eqn:En.
        + apply ttype_eqb_spec in En. ib E. injection E as <- <-. destruct a0 as [b r2]. cbn [fst snd] in *.
          apply IH in E0 as (t1 & e & x & -> & D & EL); [|inversion G; assumption].
          exists (t :: t1), e, (XNot (k_text t) x). split; [reflexivity|]. split; [apply d_not; assumption|].
          cbn [Parse_Spec.elab]. rewrite EL. reflexivity.
        + apply IH in E as (t1 & e & x & E' & D & EL); [|exact G]. exists t1, e, x.
          split; [exact E'|]. split; [apply d_term; exact D|exact EL]. }
    destruct P as (t1 & e & x & E' & D & EL). apply IH in H; [|eapply good_rest; eauto].
    destruct (H _ _ _ D EL) as (t2 & e2 & x2 & -> & D2 & E2).
    exists (t1 ++ t2), e2, x2. rewrite E', <- app_assoc. auto.
  - (* WPostfix *) intros e0 ts0 x0 D0 E0. destruct ts as [|t r]; [discriminate|]. inversion G as [|? ? _ Gr]; subst.
    destruct (ttype_eqb (k_type t) OPERATOR_IS) eqn:Ei; [|destruct (ttype_eqb (k_type t) OPERATOR_RANGE) eqn:Er;
      [discriminate|destruct (ttype_eqb (k_type t) QUESTION_MARK) eqn:Eq]].
    + apply ttype_eqb_spec in Ei. ib H. injection H as <- <-. apply resolve_ok in E as (u & r' & -> & En & Es).
      exists [t; u], Closed, (XIs x0 (k_text u)). rewrite Es. split; [reflexivity|]. split.
      * apply (d_is false e0); auto; discriminate.
      * cbn [Parse_Spec.elab]. rewrite E0. cbn [rbind]. rewrite En. reflexivity.
    + apply ttype_eqb_spec in Eq. destruct r as [|u r]; [discriminate|]. ib H. ib H. ib H. ib H.
      injection H as <- <-. destruct a0 as [oa r1]. cbn [fst snd] in *.
      apply expect_ok in E1 as (c & r2 & -> & Hc). cbn [tail] in E2. destruct a2 as [z r3]. cbn [fst snd] in *.
      destruct (ttype_eqb (k_type u) COLON) eqn:Ec.
      * apply ttype_eqb_spec in Ec. injection E as <- <- <-.
        apply IH3 in E2 as (t2 & e2 & x2 & -> & D2 & EL2); [|inversion Gr; assumption].
        exists (t :: u :: t2), Open, (XElvis x0 x2). split; [reflexivity|]. split.
        -- apply (d_elvis false e0 ts0 t u e2); auto; discriminate.
        -- cbn [Parse_Spec.elab]. rewrite E0. cbn [rbind]. rewrite EL2. exact E3.
      * ib E. injection E as <- E. destruct a0 as [y r4]. cbn [fst snd] in *. subst r4.
        apply IH3 in E1 as (t1 & e1 & x1 & Ets & D1 & EL1); [|exact Gr]. cbn [app] in D1.
        assert (G2 : Forall good (c :: r2)) by (eapply good_rest; eauto).
        apply IH3 in E2 as (t2 & e2 & x2 & -> & D2 & EL2); [|inversion G2; assumption].
        exists (t :: t1 ++ c :: t2), Open, (XTern x0 x1 x2). split; [cbn [app]; rewrite Ets, <- app_assoc; reflexivity|]. split.
        -- apply (d_tern false e0 ts0 t e1 t1 c e2); auto; discriminate.
        -- cbn [Parse_Spec.elab]. rewrite E0. cbn [rbind]. rewrite EL1. cbn [rbind]. rewrite EL2. exact E3.
    + apply IH in H; [|exact G]. destruct (H e0 ts0 x0) as (t1 & e & x & Ets & D & EL); [apply d_prefixed; exact D0|exact E0|].
      exists t1, e, x. split; [exact Ets|]. split; [apply d_suffixed; exact D|exact EL].
  - (* WRepeat *) intros e0 ts0 x0 D0 E0. destruct ts as [|t r]; [discriminate|]. inversion G as [|? ? _ Gr]; subst.
    destruct (ttype_eqb (k_type t) BRACKET_OPEN); [discriminate|].
    destruct (ty_in (k_type t) _) eqn:Es.
    + apply ty_in_spec in Es. apply IH in H; [|exact Gr].
      destruct (H Closed (ts0 ++ [t]) (XPost (k_type t) (k_text t) x0)) as (t1 & e & x & -> & D & EL).
      * apply (d_post false e0); auto; [discriminate|]. unfold step_types. set_solver.
      * cbn [Parse_Spec.elab]. rewrite E0. reflexivity.
      * exists (t :: t1), e, x. rewrite <- app_assoc in D. auto.
    + destruct (ttype_eqb (k_type t) OPERATOR_NOT) eqn:En.
      * apply ttype_eqb_spec in En. apply IH in H; [|exact Gr].
        destruct (H Closed (ts0 ++ [t]) (XValid x0)) as (t1 & e & x & -> & D & EL).
        -- apply (d_valid false e0); auto; discriminate.
        -- cbn [Parse_Spec.elab]. rewrite E0. reflexivity.
        -- exists (t :: t1), e, x. rewrite <- app_assoc in D. auto.
      * destruct (ttype_eqb (k_type t) OPERATOR_SCOPE); [discriminate|]. injection H as <- <-.
        exists [], e0, x0. rewrite app_nil_r. auto.
  - (* WTerm *) destruct ts as [|t r]; [discriminate|]. inversion G as [|? ? _ Gr]; subst.
    destruct (literal _ _ _) eqn:El.
    { injection H as <- <-. exists [t], Closed, (XLit (k_type t) (k_text t)). split; [reflexivity|]. split.
      - apply d_lit. eapply literal_const; eauto.
      - cbn [Parse_Spec.elab]. rewrite El. reflexivity. }
    destruct (ttype_eqb (k_type t) IDENTIFIER) eqn:Ei.
    { apply ttype_eqb_spec in Ei. ib H. apply resolve_ok in E as (u & r' & E & En & Es). injection E as <- <-.
      rewrite Es in H. apply IH in H; [|exact Gr].
      destruct (H t Ei eq_refl En) as (t1 & e & x & -> & D & EL). exists (t :: t1), e, x. auto. }
    destruct (ttype_eqb (k_type t) KEYWORD) eqn:Ek.
    { apply ttype_eqb_spec in Ek. apply IH in H; [|exact Gr].
      destruct (H t Ek eq_refl) as (t1 & e & x & -> & D & EL). exists (t :: t1), e, x. auto. }
    destruct (ttype_eqb (k_type t) PARENTHESIS_OPEN) eqn:Ep; [|discriminate].
    apply ttype_eqb_spec in Ep. ib H. ib H. injection H as <- <-. destruct a as [a r1]. cbn [fst snd] in *.
    apply expect_ok in E0 as (c & r2 & -> & Hc). apply IH3 in E as (t1 & e & x & -> & D & EL); [|exact Gr].
    exists (t :: t1 ++ [c]), Closed, x. cbn [tail app]. rewrite <- app_assoc. split; [reflexivity|]. split; [|exact EL].
    apply (d_paren false t t1 c e); assumption.
  - (* WName *) intros t0 Ht0 <- Hn. destruct ts as [|t r]; [discriminate|]. inversion G as [|? ? Gt Gr]; subst.
    destruct Gt as [Wt Nt]. rewrite (made_const _ Wt), (made_assign _ Wt) in H.
    destruct (ty_in (k_type t) const_types || ttype_eqb (k_type t) IDENTIFIER || ttype_eqb (k_type t) KEYWORD) eqn:Ec.
    { destruct k as [? ?| |tyk atk]; try discriminate. ib H. injection H as <- <-. destruct a as [a r1]. cbn [fst snd] in *.
      apply IH3 in E as (t1 & e & x & Ets & D & EL); [|exact G]. cbn [app] in D.
      destruct (starts _ _ _ _ _ D) as (u & t2 & -> & _). cbn [app] in Ets. injection Ets as <- ->.
      exists (t :: t2), Open, (XCast (k_text t0) x). split; [reflexivity|]. split.
      - apply (d_cast false t0 t t2 e); auto. apply elem_of_cons.
        destruct (ty_in (k_type t) const_types) eqn:E1; [apply ty_in_spec in E1; right; right; exact E1|].
        destruct (ttype_eqb (k_type t) IDENTIFIER) eqn:E2; [apply ttype_eqb_spec in E2; auto|].
        cbn in Ec. apply ttype_eqb_spec in Ec. right. rewrite Ec. left.
      - cbn [Parse_Spec.elab]. rewrite Hn. cbn [rbind]. rewrite EL. reflexivity. }
    destruct (ty_in (k_type t) assign_types) eqn:Ea.
    { apply ty_in_spec in Ea. ib H. ib H. injection H as <- <-. destruct a as [a r1]. cbn [fst snd] in *.
      apply IH3 in E as (t1 & e & x & -> & D & EL); [|exact Gr].
      exists (t :: t1), Open, (XAssign (k_text t0) (k_type t) x). split; [reflexivity|]. split.
      - apply (d_assign false t0 t t1 e); assumption.
      - cbn [Parse_Spec.elab]. rewrite Hn. cbn [rbind]. rewrite EL. cbn [rbind]. exact E0. }
    destruct (ttype_eqb (k_type t) PARENTHESIS_OPEN) eqn:Ep.
    { apply ttype_eqb_spec in Ep. ib H. ib H. ib H. injection H as <- <-.
      unfold find_parenthesis in E. apply find_inv in E; [|discriminate|lia].
      destruct E as [(b & c & r1 & -> & -> & Hc & Hb & _)|(_ & u & Hu & Hu')].
      2: { exfalso. rewrite Forall_forall in Gr. destruct (Gr u Hu) as [_ Hnil]. auto. }
      inversion Hb; subst. cbn [tail].
      destruct (args_sound _ _ IH3 _ _ _ _ Hc Gr E0) as (xs & Dx & Ex).
      exists (t :: b ++ [c]), Closed, (XCall (k_text t0) xs). cbn [app]. rewrite <- app_assoc. split; [reflexivity|]. split.
      - apply d_call; auto.
      - cbn [Parse_Spec.elab]. rewrite Hn. cbn [rbind]. fold (elab_args env xs). rewrite Ex. exact E1. }
    destruct (ttype_eqb (k_type t) BRACKET_OPEN); [discriminate|].
    destruct (ttype_eqb (k_type t) OPERATOR_DECREMENT || ttype_eqb (k_type t) OPERATOR_INCREMENT) eqn:Es.
    { ib H. injection H as <- <-. exists [t], Closed, (XStep (k_text t0) (k_type t) (k_text t)). split; [reflexivity|]. split.
      - apply d_step; [exact Ht0|]. unfold step_types.
        destruct (ttype_eqb (k_type t) OPERATOR_DECREMENT) eqn:E1; [apply ttype_eqb_spec in E1; rewrite E1; right; left|].
        cbn in Es. apply ttype_eqb_spec in Es. rewrite Es. left.
      - cbn [Parse_Spec.elab]. rewrite Hn. cbn [rbind]. exact E. }
    injection H as <- <-. exists [], Name, (XName (k_text t0)). split; [reflexivity|]. split; [apply d_name; exact Ht0|].
    cbn [Parse_Spec.elab]. rewrite Hn. reflexivity.
  - (* WWord *) intros t0 Ht0 <-. destruct (str_eqb (k_text t0) ($"cast")) eqn:Ec.
    { apply str_eqb_eq in Ec. ib H. apply expect_ok in E as (lt & r1 & -> & Hlt). cbn [tail] in H.
      ib H. apply type_name_ok in E as (t & r2 & at' & -> & Hnm & Es). rewrite Es in H.
      ib H. apply expect_ok in E as (gt & r3 & -> & Hgt). cbn [tail] in H.
      ib H. apply expect_ok in E as (o & r4 & -> & Ho). cbn [tail] in H.
      ib H. match goal with E : parse n _ _ = Ok ?p |- _ => destruct p as [y r5] end. cbn [fst snd] in H. ib H. apply expect_ok in E0 as (c & r6 & -> & Hc). cbn [tail] in H.
      ib H. injection H as <- <-.
      assert (G4 : Forall good r4) by (inversion G as [|? ? _ G1]; subst; inversion G1 as [|? ? _ G2]; subst;
        inversion G2 as [|? ? _ G3]; subst; inversion G3; assumption).
      apply IH3 in E as (t1 & e & x & -> & D & EL); [|exact G4].
      exists (lt :: t :: gt :: o :: t1 ++ [c]), Closed, (XConv (k_text t) x). cbn [app]. rewrite <- app_assoc.
      split; [reflexivity|]. split.
      - apply (d_conv false t0 lt t gt o t1 c e); auto; discriminate.
      - cbn [Parse_Spec.elab]. rewrite Hnm. cbn [rbind]. rewrite EL. cbn [rbind]. exact E0. }
    destruct (str_eqb (k_text t0) ($"typeid")) eqn:Et.
    { apply str_eqb_eq in Et. ib H. apply expect_ok in E as (o & r1 & -> & Ho). cbn [tail] in H.
      ib H. match goal with E : parse n _ _ = Ok ?p |- _ => destruct p as [y r2] end. cbn [fst snd] in H. ib H. apply expect_ok in E0 as (c & r3 & -> & Hc). cbn [tail] in H.
      injection H as <- <-.
      apply IH3 in E as (t1 & e & x & -> & D & EL); [|inversion G; assumption].
      exists (o :: t1 ++ [c]), Closed, (XTypeid x). cbn [app]. rewrite <- app_assoc.
      split; [reflexivity|]. split.
      - apply (d_typeid false t0 o t1 c e); assumption.
      - cbn [Parse_Spec.elab]. rewrite EL. reflexivity. }
    destruct (_ || _); discriminate.
Qed.
End Accepts.
