(** Well typed methods are accepted by the reader, and the trees it makes of them. *)
From Coq Require Import Floats.SpecFloat.
From Verif Require Import Base Base_Proofs Text_Model Text_Proofs Tok_Model TypeTable TypeSys_Model Value_Model Parse_Model Parse_Spec Decl_Model Decl_Spec Stmt_Model Stmt_Spec Interp_Model Run_Model Run_Spec Run_Base.

Definition stm (q : option stmt) : stmt := match q with Some s => s | None => SSkip end.
Definition blk (l : list stmt) : option stmt := match l with [] => None | _ => Some (SBlock l) end.
Definition add (q : option stmt) (l : list stmt) : list stmt := match q with Some s => s :: l | None => l end.

Section Trees.
Context (M : program).

(** [lx G x t e]: [x] has type [t] and [e] is its tree. *)
Inductive lx (G : tenv) : sx -> ty -> Interp_Model.expr -> Prop :=
| lx_int s z : number s = Some z -> (z <= 2147483647)%Z -> lx G (XLit CONST_INTEGER s) TInt (ELit (obj_of (VInt z)))
| lx_bool s : lx G (XLit CONST_BOOLEAN s) TBool (ELit (obj_of (VBool (bool_decide (s = $"true")))))
| lx_text s : lx G (XLit CONST_LITERAL s) TText (ELit (obj_of (VText s)))
| lx_name x t : type_of_name G x = Some t -> lx G (XName x) t (EVar x)
| lx_call f args m t es : find_meth M f = Some m -> me_ret m = Some t -> lxs G args (map fst (me_params m)) es ->
    lx G (XCall f args) t (ECall f es)
| lx_minus s a e : lx G a TInt e -> lx G (XSign MATH_SUBTRACT s a) TInt (EUn UMinus e)
| lx_not s a e : lx G a TBool e -> lx G (XNot s a) TBool (EUn UNot e)
| lx_inc x s : type_of_name G x = Some TInt -> lx G (XStep x OPERATOR_INCREMENT s) TInt (EStep UInc x)
| lx_dec x s : type_of_name G x = Some TInt -> lx G (XStep x OPERATOR_DECREMENT s) TInt (EStep UDec x)
| lx_tern c a b t ec ea eb : lx G c TBool ec -> lx G a t ea -> lx G b t eb -> lx G (XTern c a b) t (ETern ec ea eb)
| lx_logic op s a b ea eb : op = AND \/ op = OR -> lx G a TBool ea -> lx G b TBool eb ->
    lx G (XBin 3 op s a b) TBool (EBool op ea eb)
| lx_arith k op s a b t u v ea eb : (k = 0 \/ k = 1)%nat -> operation_type k op t u = Some v -> lx G a t ea -> lx G b u eb ->
    lx G (XBin k op s a b) v (EBin op ea eb)
| lx_compare op s a b t u v ea eb : op <> COMPARE_UNEQUAL -> operation_type 2 op t u = Some v -> lx G a t ea -> lx G b u eb ->
    lx G (XBin 2 op s a b) v (EBool op ea eb)
| lx_unequal s a b t ea eb : lx G a t ea -> lx G b t eb ->
    lx G (XBin 2 COMPARE_UNEQUAL s a b) TBool (EUn UNot (EBool COMPARE_EQUAL ea eb))
with lxs (G : tenv) : list sx -> list ty -> list Interp_Model.expr -> Prop :=
| lxs_nil : lxs G [] [] []
| lxs_cons a l t ts e es : lx G a t e -> lxs G l ts es -> lxs G (a :: l) (t :: ts) (e :: es).
Scheme lx_mut := Minimality for lx Sort Prop with lxs_mut := Minimality for lxs Sort Prop.
Combined Scheme lx_both from lx_mut, lxs_mut.

Lemma typeof_lx G : forall x t, typeof M G x = Some t -> exists e, lx G x t e.
Proof.
  fix IH 1. intros x t. destruct x; cbn [typeof]; try discriminate.
  - destruct ty; try discriminate.
    + intros [= <-]. eexists. constructor.
    + destruct (number s) as [z|] eqn:N; [|discriminate]. destruct (z <=? 2147483647)%Z eqn:L; [|discriminate].
      intros [= <-]. apply Z.leb_le in L. eexists. by constructor.
    + intros [= <-]. eexists. constructor.
  - intros H. eexists. by constructor.
  - destruct (find_meth M f) as [m|] eqn:Hm; [|discriminate].
    assert (HA : forall ts, (fix types l := match l with
                                | [] => Some []
                                | a :: l => match typeof M G a, types l with Some t, Some ts => Some (t :: ts) | _, _ => None end
                                end) args = Some ts -> exists es, lxs G args ts es).
    { clear Hm. induction args as [|a l IHl]; intros ts; [intros [= <-]; eexists; constructor|].
      destruct (typeof M G a) as [ta|] eqn:Ha; [|discriminate].
      match goal with |- match ?X with _ => _ end = _ -> _ => destruct X as [tl|]; [|discriminate] end.
      intros [= <-]. destruct (IH _ _ Ha) as [e He]. destruct (IHl tl eq_refl) as [es Hes]. eexists. by constructor. }
    match goal with |- match ?X with _ => _ end = _ -> _ => destruct X as [ts|]; [|discriminate] end.
    destruct (HA ts eq_refl) as [es Hes]. destruct (bool_decide_reflect (ts = map fst (me_params m))) as [->|]; [|discriminate].
    intros Hr. eexists. by eapply lx_call.
  - destruct op; try discriminate. destruct (typeof M G x) as [[]|] eqn:Ha; try discriminate. intros [= <-].
    destruct (IH _ _ Ha) as [e He]. eexists. by constructor.
  - destruct (typeof M G x) as [[]|] eqn:Ha; try discriminate. intros [= <-]. destruct (IH _ _ Ha) as [e He]. eexists. by constructor.
  - destruct op; try discriminate; destruct (type_of_name G x) as [[]|] eqn:Ha; try discriminate; intros [= <-]; eexists; by constructor.
  - destruct (typeof M G x1) as [[]|] eqn:H1; try discriminate. destruct (typeof M G x2) as [t2|] eqn:H2; try discriminate.
    destruct (typeof M G x3) as [t3|] eqn:H3; try discriminate. destruct (bool_decide_reflect (t2 = t3)) as [->|]; [|discriminate].
    intros [= <-]. destruct (IH _ _ H1) as [e1 ?]. destruct (IH _ _ H2) as [e2 ?]. destruct (IH _ _ H3) as [e3 ?]. eexists. by constructor.
  - destruct (typeof M G x1) as [t1|] eqn:H1; try discriminate. destruct (typeof M G x2) as [t2|] eqn:H2; try discriminate.
    destruct (IH _ _ H1) as [e1 ?]. destruct (IH _ _ H2) as [e2 ?]. intros Ho.
    destruct k as [|[|[|[|k]]]].
    + eexists. eapply lx_arith; eauto.
    + eexists. eapply lx_arith; eauto.
    + destruct (decide (op = COMPARE_UNEQUAL)) as [->|Hn].
      * cbn [operation_type] in Ho. destruct (bool_decide_reflect (t1 = t2)) as [->|]; [|discriminate]. injection Ho as <-.
        eexists. by econstructor.
      * eexists. by eapply lx_compare.
    + destruct op; try discriminate Ho; destruct t1; try discriminate Ho; destruct t2; try discriminate Ho; injection Ho as <-;
        eexists; apply lx_logic; eauto.
    + destruct op; discriminate Ho.
Qed.
Lemma types_lxs G l : forall ts, types M G l = Some ts -> exists es, lxs G l ts es.
Proof.
  induction l as [|a l IH]; intros ts; cbn [types]; [intros [= <-]; eexists; constructor|].
  destruct (typeof M G a) as [ta|] eqn:Ha; [|discriminate]. destruct (types M G l) as [tl|]; [|discriminate]. intros [= <-].
  destruct (typeof_lx _ _ _ Ha) as [e He]. destruct (IH _ eq_refl) as [es Hes]. eexists. by constructor.
Qed.

(** [low r loop G s q G']: [s] is well typed in [G], leaves [G'] and its tree is [q]. *)
Inductive low (r : option ty) : bool -> tenv -> ss -> option stmt -> tenv -> Prop :=
| low_empty b G : low r b G YEmpty None G
| low_expr b G x t e : lx G x t e -> low r b G (YExpr x) (Some (SExpr e)) G
| low_proc b G f args m es : find_meth M f = Some m -> me_ret m = None -> lxs G args (map fst (me_params m)) es ->
    low r b G (YExpr (XCall f args)) (Some (SExpr (ECall f es))) G
| low_assign b G x a t e : type_of_name G x = Some t -> lx G a t e ->
    low r b G (YAssign (XAssign x ASSIGN a)) (Some (SAssign x e)) G
| low_compound b G x op k op' a t u e : operation_of op = Some (k, op') -> type_of_name G x = Some t -> lx G a u e ->
    operation_type k op' t u = Some t -> low r b G (YAssign (XAssign x op a)) (Some (SAssign x (EBin op' (EVar x) e))) G
| low_decl b G w x t G1 : named_type_of w = Some t -> introduce G x t = Some G1 ->
    low r b G (YDecl (NamedType w x None None) None) (Some (SDecl w x None)) G1
| low_init b G w x t G1 e e' : named_type_of w = Some t -> introduce G x t = Some G1 -> lx G1 e t e' ->
    low r b G (YDecl (NamedType w x None None) (Some e)) (Some (SDecl w x (Some e'))) G1
| low_var b G x t G1 e e' : type_of_name G x = None -> lx G e t e' -> introduce G x t = Some G1 ->
    low r b G (YVar x None None e) (Some (SDecl (type_word t) x (Some e'))) G1
| low_assert b G e e' : lx G e TBool e' -> low r b G (YAssert e None) (Some (SAssert e')) G
| low_break G : low r true G YBreak (Some SBreak) G
| low_continue G : low r true G YContinue (Some SContinue) G
| low_print b G e t e' : lx G e t e' -> low r b G (YPrint e) (Some (SPrint e')) G
| low_return b G : r = None -> low r b G (YReturn None) (Some (SReturn None)) G
| low_return_value b G e t e' : r = Some t -> lx G e t e' -> low r b G (YReturn (Some e)) (Some (SReturn (Some e'))) G
| low_if b G c a c' qa : lx G c TBool c' -> low r b G a qa G -> low r b G (YIf c a None) (Some (SIf c' (stm qa) SSkip)) G
| low_else b G c a s c' qa qs : lx G c TBool c' -> low r b G a qa G -> low r b G s qs G ->
    low r b G (YIf c a (Some s)) (Some (SIf c' (stm qa) (stm qs))) G
| low_while b G c s c' qs : lx G c TBool c' -> low r (in_loop b s) G s qs G -> low r b G (YWhile c s) (Some (SWhile c' (stm qs))) G
| low_for b G G1 i c u s qi c' qu qs : low r false ([] :: G) i qi G1 -> lx G1 c TBool c' -> low r false G1 u qu G1 ->
    low r (in_loop b s) G1 s qs G1 -> steady false false i = true -> steady false false u = true -> steady true false s = true ->
    low r b G (YFor (Some i) (Some c) (Some u) s) (Some (SFor (stm qi) (Some c') (stm qu) (stm qs))) G
| low_block b G G1 l q : low_all r b ([] :: G) l q G1 -> low r b G (YBlock l) (blk q) G
with low_all (r : option ty) : bool -> tenv -> list ss -> list stmt -> tenv -> Prop :=
| low_nil b G : low_all r b G [] [] G
| low_cons b G G1 G2 s l q ql : low r b G s q G1 -> low_all r b G1 l ql G2 -> low_all r b G (s :: l) (add q ql) G2.
Scheme low_mut := Minimality for low Sort Prop with low_all_mut := Minimality for low_all Sort Prop.
Combined Scheme low_both from low_mut, low_all_mut.

Lemma bool_if {A} (b : bool) (x y : A) : (if b then Some x else None) = Some y -> b = true /\ x = y.
Proof. destruct b; [|done]. by intros [= ->]. Qed.
(** A statement that is no declaration leaves the variables as they are. *)
Lemma no_declaration r : (forall b G s q G', low r b G s q G' -> declaration s = false -> G' = G).
Proof. intros b G s q G' H. destruct H; try reflexivity; discriminate. Qed.

Lemma checks_return r b G G' e : match r, e with
  | Some t, Some e => if bool_decide (typeof M G e = Some t) then Some G else None
  | None, None => Some G
  | _, _ => None
  end = Some G' -> exists q, low r b G (YReturn e) q G'.
Proof.
  destruct r as [t|], e as [e|]; try discriminate; [|intros [= <-]; eexists; by constructor].
  intros H. apply bool_if in H as [H1 <-]. apply bool_decide_eq_true in H1. destruct (typeof_lx _ _ _ H1) as [e' He]. eexists. by econstructor.
Qed.
Lemma checks_low r : forall s b G G', checks M r b G s = Some G' -> exists q, low r b G s q G'.
Proof.
  fix IH 1. intros s b G G'.
  assert (HB : forall s b G, (forall b G G', checks M r b G s = Some G' -> exists q, low r b G s q G') ->
    negb (declaration s) && match checks M r b G s with Some _ => true | None => false end = true -> exists q, low r b G s q G).
  { clear. intros s b G IH H. apply andb_true_iff in H as [D H]. destruct (checks M r b G s) as [G1|] eqn:C; [|discriminate].
    destruct (IH _ _ _ C) as [q Hq]. rewrite (no_declaration _ _ _ _ _ _ Hq) in Hq; [by exists q|]. by destruct (declaration s). }
  destruct s; cbn [checks]; try discriminate.
  - intros [= <-]. eexists. constructor.
  - destruct (typeof M G x) as [t|] eqn:Hx.
    + intros [= <-]. destruct (typeof_lx _ _ _ Hx) as [e He]. eexists. by econstructor.
    + intros H. apply bool_if in H as [Hp <-]. unfold procedure in Hp. destruct x; try discriminate Hp.
      destruct (find_meth M f) as [m|] eqn:Hm; [|discriminate]. destruct (types M G args) as [ts|] eqn:Ht; [|discriminate].
      apply andb_true_iff in Hp as [H1 H2]. apply bool_decide_eq_true in H1, H2. subst ts. destruct (types_lxs _ _ _ Ht) as [es Hes].
      eexists. by eapply low_proc.
  - destruct x; try discriminate. destruct (type_of_name G x) as [t|] eqn:Hx; [|discriminate]. destruct (typeof M G x0) as [u|] eqn:Ha; [|discriminate].
    destruct (typeof_lx _ _ _ Ha) as [e He]. intros H.
    destruct (decide (op = ASSIGN)) as [->|Hn].
    + apply bool_if in H as [H1 <-]. apply bool_decide_eq_true in H1 as ->. eexists. by econstructor.
    + assert (Hop : exists k o, operation_of op = Some (k, o) /\ operation_type k o t u = Some t /\ G = G').
      { destruct op; try discriminate H; try done; cbn [operation_of] in *; apply bool_if in H as [H1 <-]; apply bool_decide_eq_true in H1; eauto. }
      destruct Hop as (k & o & H1 & H2 & <-). eexists. by eapply low_compound.
  - destruct d as [w x [|] [|]]; try discriminate. destruct (named_type_of w) as [t|] eqn:Hw; [|discriminate].
    destruct (introduce G x t) as [G1|] eqn:Hi; [|discriminate]. destruct e as [e|].
    + intros H. apply bool_if in H as [H1 <-]. apply bool_decide_eq_true in H1. destruct (typeof_lx _ _ _ H1) as [e' He]. eexists. by econstructor.
    + intros [= <-]. eexists. by econstructor.
  - destruct m, a; try discriminate. destruct (typeof M G e) as [t|] eqn:He; [|discriminate]. destruct (bool_decide_reflect (type_of_name G x = None)); [|discriminate].
    intros Hi. destruct (typeof_lx _ _ _ He) as [e' He']. eexists. by eapply low_var.
  - destruct message; [discriminate|]. intros H. apply bool_if in H as [H1 <-]. apply bool_decide_eq_true in H1. destruct (typeof_lx _ _ _ H1) as [e' He]. eexists. by econstructor.
  - intros H. apply bool_if in H as [-> <-]. eexists. constructor.
  - intros H. apply bool_if in H as [-> <-]. eexists. constructor.
  - destruct (typeof M G e) as [t|] eqn:He; [|discriminate]. intros [= <-]. destruct (typeof_lx _ _ _ He) as [e' He']. eexists. by econstructor.
  - apply checks_return.
  - destruct init as [i|]; [|discriminate]. destruct c as [c|]; [|discriminate]. destruct it as [u|]; [|discriminate].
    destruct (checks M r false ([] :: G) i) as [G1|] eqn:Hi; [|discriminate]. intros H. apply bool_if in H as [H <-].
    repeat (apply andb_true_iff in H as [H ?]). apply bool_decide_eq_true in H.
    destruct (IH i _ _ _ Hi) as [qi ?]. destruct (typeof_lx _ _ _ H) as [c' ?].
    destruct (HB u false G1 (IH u) ltac:(assumption)) as [qu ?]. destruct (HB s (in_loop b s) G1 (IH s) ltac:(assumption)) as [qs ?].
    eexists. by eapply low_for.
  - intros H. apply bool_if in H as [H <-]. apply andb_true_iff in H as [H Hs]. apply andb_true_iff in H as [H Ha]. apply bool_decide_eq_true in H.
    destruct (typeof_lx _ _ _ H) as [c' ?]. destruct (HB _ _ _ (IH s) Ha) as [qa ?].
    destruct b0 as [s0|]; [|eexists; by econstructor]. destruct (HB _ _ _ (IH s0) Hs) as [qs ?]. eexists; by econstructor.
  - intros H. apply bool_if in H as [H <-]. apply andb_true_iff in H as [H Ha]. apply bool_decide_eq_true in H.
    destruct (typeof_lx _ _ _ H) as [c' ?]. destruct (HB _ _ _ (IH s) Ha) as [qa ?]. eexists; by econstructor.
  - assert (HL : forall G1 G2, (fix all G l := match l with
                            | [] => Some G
                            | s :: l => match checks M r b G s with Some G1 => all G1 l | None => None end
                            end) G1 l = Some G2 -> exists q, low_all r b G1 l q G2).
    { induction l as [|s l IHl]; intros G1 G2; [intros [= <-]; eexists; constructor|].
      destruct (checks M r b G1 s) as [G3|] eqn:Hs; [|discriminate]. intros H. destruct (IH s _ _ _ Hs) as [q ?]. destruct (IHl _ _ H) as [ql ?].
      eexists. by econstructor. }
    match goal with |- match ?X with _ => _ end = _ -> _ => destruct X as [G1|] eqn:HX; [|discriminate] end. intros [= <-].
    destruct (HL _ _ HX) as [q ?]. eexists. by econstructor.
Qed.
Lemma checks_low_all r l : forall b G G', checks_all M r b G l = Some G' -> exists q, low_all r b G l q G'.
Proof.
  induction l as [|s l IH]; intros b G G'; cbn [checks_all]; [intros [= <-]; eexists; constructor|].
  destruct (checks M r b G s) as [G3|] eqn:Hs; [|discriminate]. intros H. destruct (checks_low _ _ _ _ _ Hs) as [q ?]. destruct (IH _ _ _ H) as [ql ?].
  eexists. by econstructor.
Qed.
End Trees.
