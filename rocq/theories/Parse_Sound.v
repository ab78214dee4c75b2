(** What the reader accepts, that it always ends, and the texts of given trees. *)
From Coq Require Import Floats.SpecFloat.
From Verif Require Import Base Base_Proofs Text_Model Tok_Model TypeTable TypeSys_Model Value_Model Parse_Model
  Parse_Spec Parse_Brackets Parse_Complete.

Ltac inv_bind H := match type of H with
  | rbind ?e _ = Ok _ => let E := fresh "E" in destruct e eqn:E; cbn [rbind] in H; try discriminate H
  end.

(** ** Typed trees have the structure of the surface tree *)
Section Tree.
Context (env : penv).
Notation elab := (elab env).
Notation tree := (tree_of (pe_io env)).

Lemma arith_tree op s p q n : op ∈ ops 0 \/ op ∈ ops 1 ->
  arith_node env (tok op s) p q = Ok n -> operator_node op s p q n.
Proof.
  intros Ho H. unfold arith_node in H. cbn [k_type k_text tok] in H. inv_bind H.
  assert (M : op ∉ [COMPARE_UNEQUAL; COMPARE_EQUAL_CONTENT; COMPARE_UNEQUAL_CONTENT]).
  { intros M. destruct Ho as [Ho|Ho]; apply ty_in_spec in Ho;
    repeat (apply elem_of_cons in M as [M|M]; [subst; discriminate|]); inversion M. }
  destruct (psym p) as [k|]; [destruct (sym_atomic k)|].
  - injection H as <-. constructor.
  - destruct (negb _); [discriminate|]. destruct (pe_opm _ _ _ _); [|discriminate]. injection H as <-.
    constructor. exact M.
  - injection H as <-. constructor.
Qed.
Lemma cmp_tree op s p q n : op ∈ ops 2 -> cmp_node env (tok op s) p q = Ok n -> operator_node op s p q n.
Proof.
  intros Ho H. unfold cmp_node in H. cbn [k_type k_text tok] in H.
  inv_bind H. destruct (negb (pe_type env (ptype p))); [discriminate|].
  assert (O : forall b, op = b -> ty_in b [COMPARE_UNEQUAL; COMPARE_EQUAL_CONTENT; COMPARE_UNEQUAL_CONTENT] = false ->
    op ∉ [COMPARE_UNEQUAL; COMPARE_EQUAL_CONTENT; COMPARE_UNEQUAL_CONTENT]).
  { intros b -> Hb. apply ty_in_false. exact Hb. }
  repeat (apply elem_of_cons in Ho as [Ho|Ho];
    [subst; cbn in H; destruct (psym p) as [k|];
     [destruct (pe_opm _ _ _ _)|]; cbn in H; try discriminate H; injection H as <-;
     first [apply on_bool; apply ty_in_false; reflexivity | apply on_meth; apply ty_in_false; reflexivity
           | apply on_same | apply on_unequal | apply on_unequal_method; apply ty_in_spec; reflexivity]|]).
  inversion Ho.
Qed.
Lemma logic_tree op s p q : op ∈ logic_ops -> operator_node op s p q (PBool op s p q).
Proof.
  intros Ho. apply on_bool. apply ty_in_false.
  repeat (apply elem_of_cons in Ho as [Ho|Ho]; [subst; reflexivity|]). inversion Ho.
Qed.
Lemma node_tree k op s p q n : op ∈ ops k -> node env k (tok op s) p q = Ok n -> operator_node op s p q n.
Proof.
  intros Ho H. destruct k as [|[|[|k]]]; cbn [node] in H.
  - apply arith_tree; auto.
  - apply arith_tree; auto.
  - apply cmp_tree; auto.
  - cbn in H. injection H as <-. apply logic_tree. exact Ho.
Qed.

Lemma assign_tree x op k p a n : op ∈ assign_types -> tree p a -> assign_node env (tok op []) x k p = Ok n ->
  tree n (XAssign x op a).
Proof.
  intros Ho Hp H. unfold assign_node in H. cbn [k_type tok] in H.
  destruct (ttype_eqb op ASSIGN) eqn:Ea.
  - apply ttype_eqb_spec in Ea. subst op. cbn [rbind] in H.
    destruct (sym_atomic k || str_eqb (sym_type k) (ptype p)).
    + inv_bind H. injection H as <-. apply t_assign. exact Hp.
    + destruct (negb _); [discriminate|]. destruct (pe_opm _ _ _ _); [|discriminate]. injection H as <-.
      apply t_assign_method. exact Hp.
  - destruct (compound op) as [[op' s]|] eqn:Ec; [|discriminate].
    inv_bind H.
    assert (E' : (exists t', a0 = PBin op' s (PSym x k) p t') \/ (exists t', a0 = PMeth (PSym x k) s p t')).
    { destruct (sym_atomic k).
      - inv_bind E. injection E as <-. left. eauto.
      - destruct (negb _); [discriminate|]. inv_bind E. destruct (pe_opm _ _ _ _); [|discriminate].
        injection E as <-. right. eauto. }
    clear E. destruct (sym_atomic k || str_eqb (sym_type k) (ptype a0)).
    + inv_bind H. injection H as <-. eapply t_compound; eauto.
    + destruct (negb _); [discriminate|]. destruct (pe_opm _ _ _ _); [|discriminate]. injection H as <-.
      eapply t_compound_method; eauto.
Qed.

Theorem elab_tree s :
  (forall p e ts x, denotes s p e ts x -> forall q, elab x = Ok q -> tree q x) /\
  (forall ts l, denotes_args s ts l -> forall qs, elab_args env l = Ok qs -> trees_of (pe_io env) qs l).
Proof.
  apply (denotes_both s (fun p e ts x _ => forall q, elab x = Ok q -> tree q x)
                        (fun ts l _ => forall qs, elab_args env l = Ok qs -> trees_of (pe_io env) qs l)); intros;
    try (match goal with H : elab _ = Ok _ |- _ => cbn [Parse_Spec.elab] in H; rename H into HE end);
    try assumption; try (match goal with IH : forall q, _ -> tree q ?x |- tree _ ?x => apply IH; exact HE end).
  - destruct (literal _ _ _) eqn:L; [|discriminate]. injection HE as <-. constructor. exact L.
  - inv_bind HE. injection HE as <-. constructor.
  - inv_bind HE. unfold step_node in HE. destruct (sym_atomic _); [|discriminate]. injection HE as <-. constructor.
  - inv_bind HE. fold (elab_args env) in HE. inv_bind HE. unfold call_node in HE.
    destruct (pe_method _ _ _); [|discriminate]. injection HE as <-. constructor. auto.
  - inv_bind HE. destruct a; try discriminate. inv_bind HE. injection HE as <-. constructor. auto.
  - inv_bind HE. destruct a; try discriminate. inv_bind HE. unfold cast_node in HE. inv_bind HE.
    injection HE as <-. apply t_conv. auto.
  - inv_bind HE. injection HE as <-. constructor. auto.
  - inv_bind HE. inv_bind HE. eapply assign_tree; eauto.
  - inv_bind HE. unfold sign_node in HE. inv_bind HE. injection HE as <-. constructor. auto.
  - inv_bind HE. injection HE as <-. constructor. auto.
  - inv_bind HE. injection HE as <-. constructor. auto.
  - inv_bind HE. injection HE as <-. constructor. auto.
  - inv_bind HE. inv_bind HE. injection HE as <-. constructor. auto.
  - inv_bind HE. inv_bind HE. inv_bind HE. unfold ternary_node in HE. destruct (str_eqb _ _); [|discriminate].
    injection HE as <-. constructor; auto.
  - inv_bind HE. inv_bind HE. unfold ternary_node in HE. destruct (str_eqb _ _); [|discriminate].
    injection HE as <-. constructor; auto.
  - inv_bind HE. inv_bind HE. eapply t_bin; [auto|auto|]. eapply node_tree; eauto.
  - inv_bind HE. inv_bind HE. eapply t_bin; [auto|auto|]. eapply node_tree; eauto.
  - match goal with H : elab_args _ _ = Ok _ |- _ => cbn [elab_args] in H; injection H as <- end. constructor.
  - match goal with H : elab_args _ _ = Ok _ |- _ => cbn [elab_args] in H; inv_bind H; cbn [rbind] in H; injection H as <- end.
    constructor; [auto|constructor].
  - match goal with H : elab_args _ (_ :: _) = Ok _ |- _ => cbn [elab_args] in H; inv_bind H; fold (elab_args env) in H; inv_bind H; injection H as <- end.
    constructor; auto.
Qed.
End Tree.

(** ** Fully parenthesised texts *)
Fixpoint full_args (l : list sx) : list token :=
  match l with
  | [] => []
  | [a] => full a
  | a :: l => full a ++ wtok COMMA ($",") :: full_args l
  end.

Lemma wtok_made ty s : well_made (wtok ty s).
Proof.
  unfold well_made, wtok, cat_of. cbn [k_cat k_type].
  destruct (ty_in ty const_types) eqn:E1; [|destruct (ty_in ty assign_types) eqn:E2].
  - apply ty_in_spec in E1. split; [tauto|]. split; [discriminate|]. intros H. exfalso.
    repeat (apply elem_of_cons in E1 as [E1|E1]; [subst; apply ty_in_spec in H; discriminate|]). inversion E1.
  - apply ty_in_false in E1. apply ty_in_spec in E2. split; [|tauto]. split; [discriminate|tauto].
  - apply ty_in_false in E1, E2. split; split; (discriminate || tauto).
Qed.

Lemma sx_size_ind (P : sx -> Prop) :
  (forall ty s, P (XLit ty s)) -> (forall x, P (XName x)) ->
  (forall f l, (forall a, a ∈ l -> P a) -> P (XCall f l)) ->
  (forall t a, P a -> P (XCast t a)) -> (forall t a, P a -> P (XConv t a)) -> (forall a, P a -> P (XTypeid a)) ->
  (forall x op a, P a -> P (XAssign x op a)) -> (forall op s a, P a -> P (XSign op s a)) ->
  (forall s a, P a -> P (XNot s a)) -> (forall x op s, P (XStep x op s)) -> (forall op s a, P a -> P (XPost op s a)) ->
  (forall a, P a -> P (XValid a)) -> (forall a t, P a -> P (XIs a t)) ->
  (forall c a b, P c -> P a -> P b -> P (XTern c a b)) -> (forall c b, P c -> P b -> P (XElvis c b)) ->
  (forall k op s a b, P a -> P b -> P (XBin k op s a b)) -> forall x, P x.
Proof.
  intros H1 H2 H3 H4 H5 H6 H7 H8 H9 H10 H11 H12 H13 H14 H15 H16. fix IH 1. intros [].
  3: { apply H3. revert args. fix IHl 1. intros [|a l] b Hb.
       - inversion Hb.
       - apply elem_of_cons in Hb as [->|Hb]; [apply IH|apply (IHl l b Hb)]. }
  all: first [apply H1|apply H2|apply H4|apply H5|apply H6|apply H7|apply H8|apply H9|apply H10|apply H11|apply H12
             |apply H13|apply H14|apply H15|apply H16]; apply IH.
Qed.

Lemma full_made x : Forall well_made (full x).
Proof.
  induction x using sx_size_ind; cbn [full];
    repeat first [apply Forall_nil; exact I|apply Forall_cons; split; [apply wtok_made|]|apply Forall_app; split|assumption].
  induction l as [|a l IHl]; [constructor|].
  assert (Ha : Forall well_made (full a)) by (apply H; left).
  destruct l as [|b l]; [exact Ha|].
  apply Forall_app. split; [exact Ha|]. apply Forall_cons. split; [apply wtok_made|]. apply IHl.
  intros c Hc. apply H. right. exact Hc.
Qed.

Lemma lift_level e ts x k : denotes true Infix e ts x -> denotes true (Lvl k) e ts x.
Proof. intros H. induction k; [apply d_infix|apply d_level]; assumption. Qed.
Lemma term_infix e ts x : denotes true Term e ts x -> denotes true Infix e ts x.
Proof. intros. apply d_suffixed, d_prefixed, d_term. assumption. Qed.
Lemma lift_up j k e ts x : (j <= k)%nat -> denotes true (Lvl j) e ts x -> denotes true (Lvl k) e ts x.
Proof. intros Hk H. induction Hk; [assumption|apply d_level; assumption]. Qed.

Lemma full_denotes x : writable x -> denotes true Term Closed (full x) x.
Proof.
  assert (P : forall e ts x, denotes true (Lvl 3) e ts x -> denotes true Term Closed (po :: ts ++ [pc]) x).
  { intros. eapply d_paren; eauto; reflexivity. }
  assert (L : forall e ts x, denotes true Term e ts x -> denotes true (Lvl 3) e ts x).
  { intros. apply lift_level, term_infix. assumption. }
  induction x using sx_size_ind; intros W; inversion W; subst; cbn [full].
  - apply (P Closed [wtok ty s]). apply L. apply (d_lit true (wtok ty s)). assumption.
  - apply (P Name [wtok IDENTIFIER x]). apply L. apply (d_name true (wtok IDENTIFIER x)). reflexivity.
  - change [pc; pc] with ([pc] ++ [pc]). rewrite app_assoc.
    apply (P Closed (wtok IDENTIFIER f :: po :: _ ++ [pc])). apply L.
    apply (d_call true (wtok IDENTIFIER f) po _ pc l); try reflexivity; [discriminate|].
    match goal with |- denotes_args _ ?t _ => change t with (full_args l) end.
    match goal with HW : forall a, a ∈ l -> writable a |- _ => rename HW into Hw end. clear W.
    induction l as [|a l IHl]; [constructor|].
    assert (Ha : denotes true (Lvl 3) Closed (full a) a) by (apply L, H; [left|apply Hw; left]).
    destruct l as [|b l]; [eapply da_one; exact Ha|].
    cbn [full_args]. apply (da_more true Closed (full a) a [] (wtok COMMA ($",")) (full_args (b :: l)) (b :: l));
      [exact Ha|reflexivity|reflexivity| |].
    + apply IHl; [intros c Hc; apply H; right; exact Hc|intros c Hc; apply Hw; right; exact Hc].
    + intros _ E. cbn [full_args] in E. destruct l.
      * assert (D : denotes true Term Closed (full b) b) by (apply H; [right; left|apply Hw; right; left]).
        destruct (term_starts _ _ _ _ D) as (? & ? & ? & _). congruence.
      * apply app_eq_nil in E as [_ E]. discriminate.
  - change [pc; pc] with ([pc] ++ [pc]). rewrite app_assoc.
    apply (P Closed (wtok KEYWORD ($"cast") :: wtok COMPARE_LESS ($"<") :: wtok IDENTIFIER t ::
      wtok COMPARE_GREATER ($">") :: po :: full x ++ [pc])). apply L.
    eapply (d_conv true _ _ (wtok IDENTIFIER t)); try reflexivity. apply L, IHx. assumption.
  - change [pc; pc] with ([pc] ++ [pc]). rewrite app_assoc.
    apply (P Closed (wtok KEYWORD ($"typeid") :: po :: full x ++ [pc])). apply L.
    eapply (d_typeid true); try reflexivity. apply L, IHx. assumption.
  - apply (P Open (wtok IDENTIFIER x :: wtok op [] :: full x0)). apply L.
    eapply (d_assign true (wtok IDENTIFIER x) (wtok op [])); [reflexivity|assumption|]. apply L, IHx. assumption.
  - apply (P Closed (wtok op s :: full x)). apply lift_level, d_suffixed, d_prefixed.
    apply (d_sign true (wtok op s)); [assumption|]. apply IHx. assumption.
  - apply (P Closed (wtok OPERATOR_NOT s :: full x)). apply lift_level, d_suffixed, d_prefixed.
    apply (d_not true (wtok OPERATOR_NOT s)); [reflexivity|]. apply IHx. assumption.
  - apply (P Closed [wtok IDENTIFIER x; wtok op s]). apply L.
    apply (d_step true (wtok IDENTIFIER x) (wtok op s)); [reflexivity|assumption].
  - replace (full x ++ [wtok op s; pc]) with ((full x ++ [wtok op s]) ++ [pc]) by (rewrite <- app_assoc; reflexivity).
    apply (P Closed). apply lift_level, d_suffixed. 
    apply (d_post true Closed (full x) (wtok op s)); [|reflexivity|assumption]. apply d_prefixed, d_term, IHx. assumption.
  - match goal with |- context [full x ++ [?t; pc]] => replace (full x ++ [t; pc]) with ((full x ++ [t]) ++ [pc]) by (rewrite <- app_assoc; reflexivity) end.
    apply (P Closed). apply lift_level, d_suffixed.
    eapply (d_valid true Closed); [|discriminate|reflexivity]. apply d_prefixed, d_term, IHx. assumption.
  - match goal with |- context [full x ++ [?t; ?u; pc]] => replace (full x ++ [t; u; pc]) with ((full x ++ [t; u]) ++ [pc]) by (rewrite <- app_assoc; reflexivity) end.
    apply (P Closed). apply lift_level.
    apply (d_is true Closed (full x) (wtok OPERATOR_IS ($"is")) (wtok IDENTIFIER t)); [|discriminate|reflexivity|reflexivity].
    apply d_term, IHx. assumption.
  - match goal with |- context [po :: full x1 ++ ?q :: full x2 ++ ?c :: full x3 ++ [pc]] =>
      replace (po :: full x1 ++ q :: full x2 ++ c :: full x3 ++ [pc]) with
        (po :: (full x1 ++ q :: full x2 ++ c :: full x3) ++ [pc])
        by (cbn [app]; rewrite <- !app_assoc; cbn [app]; rewrite <- !app_assoc; reflexivity) end.
    apply (P Open). apply lift_level.
    eapply (d_tern true Closed); [apply d_term, IHx1; assumption|discriminate|reflexivity|apply L, IHx2; assumption|reflexivity|].
    apply L, IHx3. assumption.
  - match goal with |- context [po :: full x1 ++ ?q :: ?c :: full x2 ++ [pc]] =>
      replace (po :: full x1 ++ q :: c :: full x2 ++ [pc]) with
        (po :: (full x1 ++ q :: c :: full x2) ++ [pc])
        by (cbn [app]; rewrite <- !app_assoc; cbn [app]; reflexivity) end.
    apply (P Open). apply lift_level.
    eapply (d_elvis true Closed); [apply d_term, IHx1; assumption|discriminate|reflexivity|reflexivity|].
    apply L, IHx2. assumption.
  - match goal with |- context [po :: full x1 ++ ?q :: full x2 ++ [pc]] =>
      replace (po :: full x1 ++ q :: full x2 ++ [pc]) with (po :: (full x1 ++ q :: full x2) ++ [pc])
        by (cbn [app]; rewrite <- !app_assoc; cbn [app]; reflexivity) end.
    apply (P Closed). apply (lift_up k); [lia|].
    assert (D1 : denotes true Infix Closed (full x1) x1) by (apply term_infix; auto).
    assert (D2 : denotes true Infix Closed (full x2) x2) by (apply term_infix; auto).
    destruct k.
    + apply (d_mul true Closed (full x1) (wtok op s) Closed); [apply d_infix; exact D1|discriminate|assumption|exact D2].
    + apply (d_bin true k Closed (full x1) (wtok op s) Closed); [apply lift_level; exact D1|discriminate|assumption|].
      apply lift_level. exact D2.
Qed.
