(** The reader on well typed statements. *)
From Coq Require Import Floats.SpecFloat.
From Verif Require Import Base Base_Proofs Text_Model Text_Proofs Tok_Model TypeTable TypeSys_Model Value_Model Parse_Model Parse_Spec Decl_Model Decl_Spec Stmt_Model Stmt_Spec Interp_Model Gen_Model Run_Model Run_Spec Run_Base Run_Static.

Section Elab.
Context (M : program) (E : senv).

Definition env_ok : Prop :=
  pe_table (se_env E) = builtin_table /\ (forall t, pe_type (se_env E) (type_word t) = true) /\
  (forall t, se_atomic E (type_word t) = true) /\ (forall a s b, pe_opm (se_env E) a s b = None) /\
  (forall w t, named_type_of w = Some t -> pe_name (se_env E) w = Some (KType w true)) /\
  (forall f m, find_meth M f = Some m -> pe_name (se_env E) f = Some KMethod /\
     pe_method (se_env E) f (map type_word (map fst (me_params m))) = Some (ret_word (me_ret m))).

(** The scopes of the reader and of the types. *)
Definition agrees (G : tenv) (sc : scopes) : Prop :=
  (forall x, local sc x = option_map (fun t => KVar (type_word t) true) (type_of_name G x)) /\
  (forall w t, named_type_of w = Some t -> type_of_name G w = None) /\
  match G, sc with l :: _, s :: _ => forall x, assoc l x = None -> sc_find s x = None | _, _ => False end.

Lemma agrees_push G sc : agrees G sc -> agrees ([] :: G) ([] :: sc).
Proof. intros (A & B & C). split; [|split]; [exact A|exact B|done]. Qed.

Lemma named_not_proper w t : named_type_of w = Some t -> proper w = false.
Proof.
  unfold named_type_of, proper. intros H. apply andb_false_iff. right. apply negb_false_iff, bool_decide_eq_true.
  repeat (case_bool_decide; [subst; unfold reserved; repeat (apply elem_of_cons; (left; reflexivity) || right); fail|]). done.
Qed.
Lemma agrees_introduce G sc x t G1 : se_atomic E (type_word t) = true -> agrees G sc -> introduce G x t = Some G1 ->
  exists sc1, define_local x (KVar (type_word t) (se_atomic E (type_word t))) sc = Ok sc1 /\ agrees G1 sc1.
Proof.
  intros At (A & B & C). unfold introduce. destruct G as [|l G]; [done|]. destruct sc as [|s sc]; [done|].
  destruct (proper x) eqn:P; [|done]. destruct (bool_decide_reflect (assoc l x = None)) as [N|]; [|done]. intros [= <-].
  cbn [define_local]. rewrite (C x N), At. eexists. split; [done|]. split; [|split].
  - intros y. specialize (A y). cbn [local sc_find]. unfold type_of_name in *. cbn [concat app assoc]. unfold str_eqb.
    case_bool_decide; [done|]. exact A.
  - intros w u Hw. pose proof (named_not_proper _ _ Hw) as Hp. unfold type_of_name. cbn [concat app assoc].
    case_bool_decide; [subst; congruence|]. exact (B w u Hw).
  - intros y. cbn [assoc sc_find]. unfold str_eqb. case_bool_decide; [done|]. apply C.
Qed.

(** What the type table says *)
Lemma table_arith k op t u v : (k = 0 \/ k = 1)%nat -> operation_type k op t u = Some v ->
  get_type builtin_table (type_word t) op (type_word u) = Ok (type_word v).
Proof.
  intros Hk Ho. destruct (arith_cases _ _ _ _ _ Hk Ho) as [(-> & -> & -> & Hin)|(-> & -> & ->)].
  - repeat (apply elem_of_cons in Hin as [->|Hin]; [vm_compute; reflexivity|]). by inversion Hin.
  - destruct u; vm_compute; reflexivity.
Qed.
Lemma table_compare op t u v : operation_type 2 op t u = Some v ->
  get_type builtin_table (type_word t) (if ttype_eqb op COMPARE_UNEQUAL then COMPARE_EQUAL else op) (type_word u) = Ok t_bool.
Proof.
  intros Ho. destruct (compare_cases _ _ _ _ Ho) as (-> & <- & [->|[->|[Ht Hin]]]); [destruct t; vm_compute; reflexivity..|].
  repeat (apply elem_of_cons in Hin as [->|Hin]; [destruct t; [|destruct (Ht eq_refl)|]; vm_compute; reflexivity|]). by inversion Hin.
Qed.
Lemma compare_plain op t u v : operation_type 2 op t u = Some v -> op <> COMPARE_UNEQUAL ->
  v = TBool /\ ttype_eqb op COMPARE_UNEQUAL = false /\ ttype_eqb op COMPARE_EQUAL_CONTENT = false /\ ttype_eqb op COMPARE_UNEQUAL_CONTENT = false.
Proof.
  intros Ho Hn. destruct (compare_cases _ _ _ _ Ho) as (-> & <- & [->|[->|[_ Hin]]]); [by repeat split|done|]. split; [done|]. clear Ho Hn.
  repeat (apply elem_of_cons in Hin as [->|Hin]; [by repeat split|]). by inversion Hin.
Qed.
Lemma table_assign t : exists r, get_type builtin_table (type_word t) ASSIGN (type_word t) = Ok r.
Proof. destruct t; eexists; vm_compute; reflexivity. Qed.
Lemma table_minus : get_type builtin_table (type_word TInt) MATH_SUBTRACT t_unary = Ok t_int.
Proof. vm_compute. reflexivity. Qed.

Context (OK : env_ok).
Lemma inside_table sc : pe_table (inside E sc) = builtin_table. Proof. apply OK. Qed.

Definition run_exprs : list pexpr -> option (list Interp_Model.expr) :=
  fix go (l : list pexpr) : option (list Interp_Model.expr) :=
    match l with [] => Some [] | a :: l => match run_expr a, go l with Some a, Some l => Some (a :: l) | _, _ => None end end.
Lemma run_call f l t : run_expr (PCall f l t) = match run_exprs l with Some l => Some (ECall f l) | None => None end.
Proof. reflexivity. Qed.
Lemma elab_call env f l : elab env (XCall f l) = let! _ := named env f in let! l := elab_args env l in call_node env f l.
Proof. reflexivity. Qed.

Definition reads sc x t e : Prop := exists p, elab (inside E sc) x = Ok p /\ ptype p = type_word t /\ run_expr p = Some e /\
  (forall k, psym p = Some k -> sym_atomic k = true).
Definition reads_args sc l ts es : Prop := exists ps, elab_args (inside E sc) l = Ok ps /\ map ptype ps = map type_word ts /\ run_exprs ps = Some es.

Lemma local_named G sc x t : agrees G sc -> type_of_name G x = Some t -> named (inside E sc) x = Ok (KVar (type_word t) true).
Proof. intros (A & _ & _) H. unfold named. cbn [inside pe_name]. rewrite A, H. reflexivity. Qed.
Lemma method_named sc f m : find_meth M f = Some m -> exists k, named (inside E sc) f = Ok k.
Proof.
  intros H. destruct OK as (_ & _ & _ & _ & _ & Hm). destruct (Hm _ _ H) as [Hn _]. unfold named. cbn [inside pe_name]. rewrite Hn.
  destruct (local sc f); eauto.
Qed.
Lemma method_call sc f m ps : find_meth M f = Some m -> map ptype ps = map type_word (map fst (me_params m)) ->
  call_node (inside E sc) f ps = Ok (PCall f ps (ret_word (me_ret m))).
Proof.
  intros H Hp. destruct OK as (_ & _ & _ & _ & _ & Hm). destruct (Hm _ _ H) as [_ Hc]. unfold call_node. cbn [inside pe_method].
  by rewrite Hp, Hc.
Qed.
Lemma arith_nodes sc k op s a b t u v : (k = 0 \/ k = 1)%nat -> operation_type k op t u = Some v ->
  ptype a = type_word t -> ptype b = type_word u -> (forall k, psym a = Some k -> sym_atomic k = true) ->
  arith_node (inside E sc) (tok op s) a b = Ok (PBin op s a b (type_word v)).
Proof.
  intros Hk Ho Ha Hb Hs. unfold arith_node. rewrite inside_table, Ha, Hb. cbn [k_type k_text tok].
  rewrite (table_arith _ _ _ _ _ Hk Ho). cbn [rbind]. destruct (psym a) as [y|] eqn:Hy; [|done]. by rewrite (Hs y).
Qed.

Lemma lx_elab G : (forall x t e, lx M G x t e -> forall sc, agrees G sc -> reads sc x t e) /\
  (forall l ts es, lxs M G l ts es -> forall sc, agrees G sc -> reads_args sc l ts es).
Proof.
  apply lx_both.
  - intros s z Hz L sc A. destruct (number_literal _ _ Hz L) as [Hs Hf]. eexists. cbn [elab literal]. rewrite Hs, (proj2 (in_range_fits z) Hf).
    split; [reflexivity|]. split; [done|]. split; [done|done].
  - intros s sc A. eexists. split; [reflexivity|]. split; [done|]. split; [done|done].
  - intros s sc A. eexists. split; [reflexivity|]. split; [done|]. split; [done|done].
  - intros x t Hx sc A. eexists. cbn [elab]. rewrite (local_named _ _ _ _ A Hx). split; [reflexivity|]. split; [done|]. split; [done|].
    intros k [= <-]. done.
  - intros f args m t es Hm Hr _ IH sc A. destruct (IH sc A) as (ps & H1 & H2 & H3). destruct (method_named sc _ _ Hm) as [k Hk].
    exists (PCall f ps (type_word t)). rewrite elab_call, Hk, H1. cbn [rbind]. rewrite (method_call sc f m ps Hm H2), Hr. split; [done|]. split; [done|].
    split; [|done]. by rewrite run_call, H3.
  - intros s a e _ IH sc A. destruct (IH sc A) as (p & H1 & H2 & H3 & H4). eexists. cbn [elab]. rewrite H1. cbn [rbind]. unfold sign_node.
    rewrite inside_table, H2. cbn [k_type k_text tok]. rewrite table_minus. cbn [rbind]. split; [reflexivity|]. split; [exact H2|]. split; [|done].
    cbn [run_expr unary_of]. by rewrite H3.
  - intros s a e _ IH sc A. destruct (IH sc A) as (p & H1 & H2 & H3 & H4). eexists. cbn [elab]. rewrite H1. cbn [rbind]. split; [reflexivity|]. split; [done|].
    split; [|done]. cbn [run_expr]. by rewrite H3.
  - intros x s Hx sc A. eexists. cbn [elab]. rewrite (local_named _ _ _ _ A Hx). cbn [rbind]. split; [reflexivity|]. split; [done|]. by split.
  - intros x s Hx sc A. eexists. cbn [elab]. rewrite (local_named _ _ _ _ A Hx). cbn [rbind]. split; [reflexivity|]. split; [done|]. by split.
  - intros c a b t ec ea eb _ IHc _ IHa _ IHb sc A. destruct (IHc sc A) as (pc & C1 & C2 & C3 & C4). destruct (IHa sc A) as (pa & A1 & A2 & A3 & A4).
    destruct (IHb sc A) as (pb & B1 & B2 & B3 & B4). exists (PTern pc pa pb). cbn [elab]. rewrite C1, A1, B1. cbn [rbind]. unfold ternary_node. rewrite A2, B2, str_eqb_refl.
    split; [done|]. split; [done|]. split; [|done]. cbn [run_expr]. by rewrite C3, A3, B3.
  - intros op s a b ea eb Hop _ IHa _ IHb sc A. destruct (IHa sc A) as (pa & A1 & A2 & A3 & A4).
    destruct (IHb sc A) as (pb & B1 & B2 & B3 & B4). exists (PBool op s pa pb). cbn [elab]. rewrite A1, B1. cbn [rbind node].
    split; [done|]. split; [done|]. split; [|done]. cbn [run_expr]. by rewrite A3, B3.
  - intros k op s a b t u v ea eb Hk Ho _ IHa _ IHb sc A. destruct (IHa sc A) as (pa & A1 & A2 & A3 & A4).
    destruct (IHb sc A) as (pb & B1 & B2 & B3 & B4). exists (PBin op s pa pb (type_word v)). cbn [elab]. rewrite A1, B1. cbn [rbind].
    split; [|split; [done|split; [|done]]].
    + destruct Hk as [->| ->]; cbn [node]; (eapply arith_nodes; [|exact Ho|exact A2|exact B2|exact A4]); auto.
    + cbn [run_expr]. by rewrite A3, B3.
  - intros op s a b t u v ea eb Hn Ho _ IHa _ IHb sc A. destruct (IHa sc A) as (pa & A1 & A2 & A3 & A4).
    destruct (IHb sc A) as (pb & B1 & B2 & B3 & B4). exists (PBool op s pa pb). cbn [elab]. rewrite A1, B1. cbn [rbind node]. unfold cmp_node.
    rewrite inside_table, A2, B2. cbn [k_type k_text tok inside pe_type pe_opm].
    pose proof (table_compare _ _ _ _ Ho) as Ht. destruct (compare_plain _ _ _ _ Ho Hn) as (-> & Hu & Hv & Hw).
    rewrite Hu, Hv, Hw.
    rewrite Hu in Ht. cbn [orb]. rewrite Ht. cbn [rbind]. destruct OK as (_ & Hty & _ & Hopm & _). rewrite Hty, Hopm. cbn [negb].
    clear Ht. split; [by destruct (psym pa)|]. split; [done|]. split; [|done]. cbn [run_expr]. by rewrite A3, B3.
  - intros s a b t ea eb _ IHa _ IHb sc A. destruct (IHa sc A) as (pa & A1 & A2 & A3 & A4).
    destruct (IHb sc A) as (pb & B1 & B2 & B3 & B4). exists (PNot [] (PBool COMPARE_EQUAL ($"==") pa pb)). cbn [elab]. rewrite A1, B1. cbn [rbind node]. unfold cmp_node.
    rewrite inside_table, A2, B2. cbn [k_type k_text tok inside pe_type pe_opm].
    assert (Ho : operation_type 2 COMPARE_EQUAL t t = Some TBool) by (cbn; by rewrite bool_decide_true).
    pose proof (table_compare _ _ _ _ Ho) as Ht.
    change (ttype_eqb COMPARE_UNEQUAL COMPARE_UNEQUAL) with true. change (ttype_eqb COMPARE_UNEQUAL COMPARE_EQUAL_CONTENT) with false.
    change (ttype_eqb COMPARE_UNEQUAL COMPARE_UNEQUAL_CONTENT) with false. change (ttype_eqb COMPARE_EQUAL COMPARE_UNEQUAL) with false in Ht.
    cbn [orb]. rewrite Ht. cbn [rbind]. destruct OK as (_ & Hty & _ & Hopm & _). rewrite Hty, Hopm. cbn [negb].
    clear Ht. split; [by destruct (psym pa)|]. split; [done|]. split; [|done]. cbn [run_expr]. by rewrite A3, B3.
  - intros sc A. exists []. done.
  - intros a l t ts e es _ IHa _ IHl sc A. destruct (IHa sc A) as (p & A1 & A2 & A3 & A4). destruct (IHl sc A) as (ps & B1 & B2 & B3).
    exists (p :: ps). unfold elab_args, run_exprs in *. cbn [map]. rewrite A1, B1, A2, B2, A3, B3. done.
Qed.

(** ** Statements *)
Lemma elab_block sc l : elab_stmt E sc (YBlock l) = let! b := elab_list E ([] :: sc) l in Ok (the_block b, sc).
Proof. reflexivity. Qed.
Lemma run_block l : run_stmt (QBlock l) = match run_stmts l with Some l => Some (SBlock l) | None => None end.
Proof. reflexivity. Qed.

Definition runs_as (q' : option pstmt) (q : option stmt) : Prop :=
  match q', q with Some q', Some q => run_stmt q' = Some q | None, None => True | _, _ => False end.
Definition opt_run (q' : option pstmt) : option stmt := match q' with None => Some SSkip | Some q => run_stmt q end.
Lemma runs_as_opt q' q : runs_as q' q -> opt_run q' = Some (stm q).
Proof. destruct q', q; try done. Qed.
(** The control flow checks pass. *)
Definition flow_opt (rt : str) (allow : bool) (q : option pstmt) (g : gst) : res gst := match q with None => Ok g | Some q => flow_stmt rt allow q g end.
Definition flow_body (rt : str) (allow : bool) (q : option pstmt) (g : gst) : res gst :=
  match q with None => Ok g | Some (QBlock l) => gen_scope false (fold_res (flow_stmt rt true) l) g | Some q => flow_stmt rt allow q g end.
Definition passes (f : gst -> res gst) : Prop := forall g, exists g', f g = Ok g' /\ g_thrown g' = g_thrown g.
Definition flows (r : option ty) (b : bool) (q : option pstmt) : Prop :=
  forall allow, (b = true -> allow = true) -> passes (flow_opt (ret_word r) allow q).
Definition reads_stmt r b sc s q G' : Prop := exists q' sc', elab_stmt E sc s = Ok (q', sc') /\ runs_as q' q /\ agrees G' sc' /\ flows r b q'.
Definition reads_list r b sc l ql : Prop := exists l', elab_list E sc l = Ok l' /\ run_stmts l' = Some ql /\
  forall allow, (b = true -> allow = true) -> passes (fold_res (flow_stmt (ret_word r) allow) l').
Lemma flows_leaf r b q : (forall allow g, flow_opt (ret_word r) allow q g = Ok g) -> flows r b q.
Proof. intros H allow _ g. exists g. by rewrite H. Qed.
Lemma passes_scope f : passes f -> passes (gen_scope false f).
Proof. intros H g. destruct (H (with_flow FNormal g)) as (g' & H1 & H2). exists g'. unfold gen_scope. by rewrite H1. Qed.
Lemma passes_then f h : passes f -> passes h -> passes (fun g => let! g1 := f g in h g1).
Proof. intros H1 H2 g. destruct (H1 g) as (g1 & A1 & A2). destruct (H2 g1) as (g2 & B1 & B2). exists g2. rewrite A1. cbn [rbind]. split; [done|congruence]. Qed.
Lemma flow_qif rt allow e a b g : flow_stmt rt allow (QIf e a b) g = let! g1 := flow_opt rt allow a g in flow_opt rt allow b g1.
Proof. reflexivity. Qed.
Lemma flow_qwhile rt allow e b g : flow_stmt rt allow (QWhile e b) g = flow_body rt allow b g.
Proof. reflexivity. Qed.
Lemma flow_qfor rt allow i c u b g : flow_stmt rt allow (QFor i c u b) g =
  let! g1 := flow_opt rt allow i g in let! g2 := flow_body rt allow u g1 in flow_body rt allow b g2.
Proof. reflexivity. Qed.
Lemma body_flows r b sc s q' sc' allow : elab_stmt E sc s = Ok (q', sc') -> flows r (in_loop b s) q' -> (b = true -> allow = true) ->
  passes (flow_body (ret_word r) allow q').
Proof.
  intros H F Hb. destruct q' as [q'|]; [|apply (F true); done].
  assert (HB : (exists l, q' = QBlock l) \/ forall g, flow_body (ret_word r) allow (Some q') g = flow_stmt (ret_word r) allow q' g).
  { destruct q'; try (right; reflexivity). left. by eexists. }
  destruct HB as [[l ->]|HB]; [exact (F true ltac:(done))|].
  assert (Hn : in_loop b s = b \/ exists l, q' = QBlock l).
  { destruct s; try (left; reflexivity). right. rewrite elab_block in H. destruct (elab_list E ([] :: sc) l) as [l'| | |]; try discriminate H.
    cbn [rbind] in H. injection H as H _. destruct l'; [discriminate H|]. injection H as <-. by eexists. }
  destruct Hn as [Hn|[l ->]]; [|exact (F true ltac:(done))]. rewrite Hn in F. intros g. rewrite HB. exact (F allow Hb g).
Qed.
Lemma free_flows r q' allow : flows r false q' -> passes (flow_body (ret_word r) allow q').
Proof. intros F. destruct q' as [q'|]; [|apply (F true); done]. destruct q'; try (by apply (F allow)). exact (F true ltac:(done)). Qed.
Lemma run_qif e a b : run_stmt (QIf e a b) =
  match run_expr e, opt_run a, opt_run b with Some e, Some a, Some b => Some (SIf e a b) | _, _, _ => None end.
Proof. reflexivity. Qed.
Lemma run_qwhile e b : run_stmt (QWhile e b) = match run_expr e, opt_run b with Some e, Some b => Some (SWhile e b) | _, _ => None end.
Proof. reflexivity. Qed.
Lemma run_qfor i c u b : run_stmt (QFor i c u b) =
  match opt_run i, run_opt_expr c, opt_run u, opt_run b with Some i, Some c, Some u, Some b => Some (SFor i c u b) | _, _, _, _ => None end.
Proof. reflexivity. Qed.

Lemma named_word w t : named_type_of w = Some t -> w = type_word t.
Proof. unfold named_type_of. repeat (case_bool_decide; [intros [= <-]; subst; reflexivity|]). done. Qed.
Lemma elab_expr G sc x t e : lx M G x t e -> agrees G sc -> reads sc x t e.
Proof. intros H A. exact (proj1 (lx_elab G) _ _ _ H sc A). Qed.

Lemma low_elab r : (forall b G s q G', low M r b G s q G' -> forall sc, agrees G sc -> reads_stmt r b sc s q G') /\
  (forall b G l ql G', low_all M r b G l ql G' -> forall sc, agrees G sc -> reads_list r b sc l ql).
Proof.
  apply low_both.
  - intros b G sc A. exists None, sc. split_and!; [done|done|done|by apply flows_leaf].
  - intros b G x t e Hx sc A. destruct (elab_expr _ _ _ _ _ Hx A) as (p & H1 & H2 & H3 & H4). eexists _, sc. cbn [elab_stmt]. unfold node_of, elab_in. change (names_inside E) with (inside E).
    rewrite H1. cbn [rbind]. split; [reflexivity|]. split; [|split; [done|by apply flows_leaf]]. cbn [runs_as run_stmt]. by rewrite H3.
  - intros b G f args m es Hm Hr Hl sc A. destruct (proj2 (lx_elab G) _ _ _ Hl sc A) as (ps & H1 & H2 & H3). destruct (method_named sc _ _ Hm) as [k Hk].
    eexists _, sc. cbn [elab_stmt]. unfold node_of, elab_in. change (names_inside E) with (inside E). rewrite elab_call, Hk, H1. cbn [rbind]. rewrite (method_call sc f m ps Hm H2). cbn [rbind].
    split; [reflexivity|]. split; [|split; [done|by apply flows_leaf]]. cbn [runs_as run_stmt]. by rewrite run_call, H3.
  - intros b G x a t e Hx Ha sc A. destruct (elab_expr _ _ _ _ _ Ha A) as (p & H1 & H2 & H3 & H4). destruct (table_assign t) as [u Hu].
    exists (Some (QAssign x (KVar (type_word t) true) p)), sc. cbn [elab_stmt]. unfold node_of, elab_in. change (names_inside E) with (inside E). cbn [elab].
    rewrite (local_named _ _ _ _ A Hx), H1. cbn [rbind]. unfold assign_node. cbn [k_type tok sym_atomic orb sym_type].
    change (ttype_eqb ASSIGN ASSIGN) with true. cbn [rbind]. rewrite inside_table, H2, Hu. cbn [rbind]. split; [done|]. split; [|split; [done|by apply flows_leaf]].
    cbn [runs_as run_stmt]. by rewrite H3.
  - intros b G x op k op' a t u e Hop Hx Ha Ho sc A. destruct (elab_expr _ _ _ _ _ Ha A) as (p & H1 & H2 & H3 & H4). destruct (table_assign t) as [w Hw].
    assert (Hc : exists s, compound op = Some (op', s) /\ ttype_eqb op ASSIGN = false /\ (k = 0 \/ k = 1)%nat).
    { destruct op; try discriminate Hop; injection Hop as <- <-; eexists; (split; [reflexivity|]); (split; [reflexivity|]); auto. }
    destruct Hc as (s & Hc & Hn & Hk). pose proof (table_arith _ _ _ _ _ Hk Ho) as Ht.
    eexists (Some (QAssign x (KVar (type_word t) true) (PBin op' s (PSym x (KVar (type_word t) true)) p (type_word t)))), sc.
    cbn [elab_stmt]. unfold node_of, elab_in. change (names_inside E) with (inside E). cbn [elab]. rewrite (local_named _ _ _ _ A Hx), H1. cbn [rbind]. unfold assign_node.
    cbn [k_type tok sym_atomic orb sym_type]. rewrite Hn, Hc. rewrite inside_table, H2, Ht. cbn [rbind ptype]. rewrite Hw. cbn [rbind]. clear Ht Hw.
    split; [done|]. split; [|split; [done|by apply flows_leaf]]. cbn [runs_as run_stmt run_expr]. by rewrite H3.
  - intros b G w x t G1 Hw Hi sc A. destruct OK as (_ & Hty & Hat & _ & Hn & _). destruct (agrees_introduce _ _ _ _ _ (Hat t) A Hi) as (sc1 & Hd & A1).
    exists (Some (QDecl w x false false None)), sc1. cbn [elab_stmt]. unfold elab_decl. change declare_name with define_local. change (visible sc) with (local sc). cbn [nt_type nt_name nt_mut nt_acc].
    destruct A as (Al & Aw & _). rewrite (Al w), (Aw w t Hw), (Hn w t Hw). cbn [option_map mutability_of rbind].
    pose proof (named_word _ _ Hw) as ->. rewrite Hty. cbn [negb]. rewrite Hd. cbn [rbind reference_of]. rewrite Hat. cbn [negb andb here_too rbind fst snd].
    split; [done|]. split; [done|]. split; [exact A1|by apply flows_leaf].
  - intros b G w x t G1 e e' Hw Hi He sc A. pose proof OK as OK'. destruct OK' as (Htab & Hty & Hat & _ & Hn & _). destruct (agrees_introduce _ _ _ _ _ (Hat t) A Hi) as (sc1 & Hd & A1).
    destruct (elab_expr _ _ _ _ _ He A1) as (p & H1 & H2 & H3 & H4). destruct (table_assign t) as [u Hu].
    exists (Some (QDecl w x false false (Some p))), sc1. cbn [elab_stmt]. unfold elab_decl. change declare_name with define_local. change (visible sc) with (local sc). cbn [nt_type nt_name nt_mut nt_acc].
    destruct A as (Al & Aw & _). rewrite (Al w), (Aw w t Hw), (Hn w t Hw). cbn [option_map mutability_of rbind].
    pose proof (named_word _ _ Hw) as ->. rewrite Hty. cbn [negb]. rewrite Hd. cbn [rbind reference_of]. rewrite Hat. unfold elab_in. change (names_inside E) with (inside E). rewrite H1. cbn [rbind].
    rewrite Htab, H2, Hu. cbn [rbind negb here_too fst snd]. clear Hu Htab OK. split; [done|]. split; [|split; [exact A1|by apply flows_leaf]]. cbn [runs_as run_stmt run_opt_expr]. by rewrite H3.
  - intros b G x t G1 e e' Hf He Hi sc A. destruct OK as (_ & Hty & Hat & _ & Hn & _). destruct (agrees_introduce _ _ _ _ _ (Hat t) A Hi) as (sc1 & Hd & A1).
    destruct (elab_expr _ _ _ _ _ He A) as (p & H1 & H2 & H3 & H4). exists (Some (QVar (type_word t) x false false p)), sc1.
    cbn [elab_stmt]. unfold elab_var. change declare_name with define_local. cbn [mutability_of rbind]. unfold elab_in. change (names_inside E) with (inside E). rewrite H1. cbn [rbind]. rewrite H2, Hty. cbn [negb]. rewrite Hd.
    cbn [rbind here_too fst snd]. split; [done|]. split; [|split; [exact A1|by apply flows_leaf]]. cbn [runs_as run_stmt]. by rewrite H3.
  - intros b G e e' He sc A. destruct (elab_expr _ _ _ _ _ He A) as (p & H1 & H2 & H3 & H4). exists (Some (QAssert p None)), sc. cbn [elab_stmt elab_opt]. unfold node_of, elab_in. change (names_inside E) with (inside E).
    rewrite H1. cbn [rbind]. split; [reflexivity|]. split; [|split; [done|by apply flows_leaf]]. cbn [runs_as run_stmt]. by rewrite H3.
  - intros G sc A. eexists _, sc. split; [reflexivity|]. split; [reflexivity|]. split; [done|]. intros allow Ha g. rewrite (Ha eq_refl). by eexists.
  - intros G sc A. eexists _, sc. split; [reflexivity|]. split; [reflexivity|]. split; [done|]. intros allow Ha g. rewrite (Ha eq_refl). by eexists.
  - intros b G e t e' He sc A. destruct (elab_expr _ _ _ _ _ He A) as (p & H1 & H2 & H3 & H4). exists (Some (QPrint p)), sc. cbn [elab_stmt]. unfold node_of, elab_in. change (names_inside E) with (inside E).
    rewrite H1. cbn [rbind]. split; [reflexivity|]. split; [|split; [done|by apply flows_leaf]]. cbn [runs_as run_stmt]. by rewrite H3.
  - intros b G -> sc A. eexists _, sc. split; [reflexivity|]. split; [reflexivity|]. split; [done|]. intros allow Ha g. by eexists.
  - intros b G e t e' -> He sc A. destruct (elab_expr _ _ _ _ _ He A) as (p & H1 & H2 & H3 & H4). exists (Some (QReturn (Some p))), sc. cbn [elab_stmt elab_opt]. unfold node_of, elab_in. change (names_inside E) with (inside E).
    rewrite H1. cbn [rbind]. split; [reflexivity|]. split; [|split; [done|]]. { cbn [runs_as run_stmt run_opt_expr]. by rewrite H3. }
    intros allow _ g. cbn [flow_opt flow_stmt]. rewrite H2. cbn [ret_word]. rewrite str_eqb_refl. by eexists.
  - intros b G c a c' qa Hc _ IHa sc A. destruct (elab_expr _ _ _ _ _ Hc A) as (p & H1 & H2 & H3 & H4). destruct (IHa sc A) as (qa' & sa & A1 & A2 & A3 & A4).
    exists (Some (QIf p qa' None)), sa. cbn [elab_stmt]. unfold elab_in. change (names_inside E) with (inside E). rewrite H1. cbn [rbind]. rewrite A1. cbn [rbind fst snd]. split; [done|]. split; [|split; [exact A3|]].
    { cbn [runs_as]. rewrite run_qif, H3, (runs_as_opt _ _ A2). done. }
    intros allow Ha. eapply (passes_then (flow_opt _ _ qa') (flow_opt _ _ None)); [by apply A4|]. intros g. by exists g.
  - intros b G c a s c' qa qs Hc _ IHa _ IHs sc A. destruct (elab_expr _ _ _ _ _ Hc A) as (p & H1 & H2 & H3 & H4). destruct (IHa sc A) as (qa' & sa & A1 & A2 & A3 & A4).
    destruct (IHs sa A3) as (qs' & sb & B1 & B2 & B3 & B4).
    exists (Some (QIf p qa' qs')), sb. cbn [elab_stmt]. unfold elab_in. change (names_inside E) with (inside E). rewrite H1. cbn [rbind]. rewrite A1. cbn [rbind fst snd]. rewrite B1. cbn [rbind fst snd]. split; [done|]. split; [|split; [exact B3|]].
    { cbn [runs_as]. rewrite run_qif, H3, (runs_as_opt _ _ A2), (runs_as_opt _ _ B2). done. }
    intros allow Ha. eapply (passes_then (flow_opt _ _ qa') (flow_opt _ _ qs')); [by apply A4|by apply B4].
  - intros b G c s c' qs Hc _ IHs sc A. destruct (elab_expr _ _ _ _ _ Hc A) as (p & H1 & H2 & H3 & H4). destruct (IHs sc A) as (qs' & sb & B1 & B2 & B3 & B4).
    exists (Some (QWhile p qs')), sb. cbn [elab_stmt]. unfold elab_in. change (names_inside E) with (inside E). rewrite H1. cbn [rbind]. rewrite B1. cbn [rbind fst snd]. split; [done|]. split; [|split; [exact B3|]].
    { cbn [runs_as]. rewrite run_qwhile, H3, (runs_as_opt _ _ B2). done. }
    intros allow Ha. exact (body_flows _ _ _ _ _ _ _ B1 B4 Ha).
  - intros b G G1 i c u s qi c' qu qs _ IHi Hc _ IHu _ IHs _ _ _ sc A. destruct (IHi _ (agrees_push _ _ A)) as (qi' & si & I1 & I2 & I3 & I4).
    destruct (elab_expr _ _ _ _ _ Hc I3) as (p & H1 & H2 & H3 & H4). destruct (IHu _ I3) as (qu' & su & U1 & U2 & U3 & U4).
    destruct (IHs _ U3) as (qs' & sb & B1 & B2 & B3 & B4).
    exists (Some (QFor qi' (Some p) qu' qs')), sc. cbn [elab_stmt]. rewrite I1. cbn [rbind fst snd elab_opt]. unfold elab_in. change (names_inside E) with (inside E). rewrite H1. cbn [rbind].
    rewrite U1. cbn [rbind fst snd]. rewrite B1. cbn [rbind fst snd]. split; [done|]. split; [|split; [exact A|]].
    { cbn [runs_as]. rewrite run_qfor, (runs_as_opt _ _ I2), (runs_as_opt _ _ U2), (runs_as_opt _ _ B2). cbn [run_opt_expr]. rewrite H3. done. }
    intros allow Ha. eapply (passes_then (flow_opt _ _ qi') (fun g => let! g2 := flow_body _ _ qu' g in flow_body _ _ qs' g2)); [by apply I4|].
    apply passes_then; [by apply free_flows|exact (body_flows _ _ _ _ _ _ _ B1 B4 Ha)].
  - intros b G G1 l q _ IH sc A. destruct (IH _ (agrees_push _ _ A)) as (l' & L1 & L2 & L3). exists (the_block l'), sc. rewrite elab_block, L1. cbn [rbind].
    split; [done|]. split; [|split; [exact A|]].
    { destruct l' as [|q0 l']; cbn [the_block]; [injection L2 as <-; done|].
      destruct q as [|s q]; [cbn [run_stmts] in L2; destruct (run_stmt q0); [destruct (run_stmts l'); done|done]|].
      cbn [blk runs_as]. by rewrite run_block, L2. }
    intros allow Ha. destruct l' as [|q0 l']; cbn [the_block]; [intros g; by exists g|]. apply (passes_scope (fold_res (flow_stmt _ allow) (q0 :: l'))). by apply L3.
  - intros b G sc A. exists []. split_and!; [done|done|]. intros allow _ g. by exists g.
  - intros b G G1 G2 s l q ql _ IHs _ IHl sc A. destruct (IHs _ A) as (q' & sc1 & Q1 & Q2 & Q3 & Q4). destruct (IHl _ Q3) as (l' & L1 & L2 & L3).
    exists (add_node q' l'). cbn [elab_list]. change node_first with add_node. rewrite Q1. cbn [rbind fst snd]. rewrite L1. cbn [rbind]. split; [done|]. split.
    { destruct q' as [q'|], q as [q|]; try contradiction; cbn [add_node add run_stmts]; [|exact L2]. cbn [runs_as] in Q2. by rewrite Q2, L2. }
    intros allow Ha. destruct q' as [q'|]; cbn [add_node]; [|by apply L3]. cbn [fold_res]. apply passes_then; [exact (Q4 allow Ha)|by apply L3].
Qed.
(** A statement that always returns: the checks see a return at its end. *)
Definition surely (rt : str) (p : pstmt) : Prop := forall allow g g', flow_stmt rt allow p g = Ok g' -> g_flow g' = FReturn.
Lemma fold_app {A} (f : A -> gst -> res gst) a b g : fold_res f (a ++ b) g = let! g1 := fold_res f a g in fold_res f b g1.
Proof. revert g. induction a as [|x a IH]; intros g; [done|]. cbn [app fold_res]. destruct (f x g); cbn [rbind]; try done. Qed.
Lemma returns_cons s s' l : returns (YBlock (s :: s' :: l)) = returns (YBlock (s' :: l)).
Proof. reflexivity. Qed.
Lemma sure_return rt : 
  (forall b G s q G', low M rt b G s q G' -> forall sc q' sc', elab_stmt E sc s = Ok (q', sc') -> returns s = true -> exists p, q' = Some p /\ surely (ret_word rt) p) /\
  (forall b G l q G', low_all M rt b G l q G' -> forall sc l', elab_list E sc l = Ok l' -> returns (YBlock l) = true -> exists l0 p, l' = l0 ++ [p] /\ surely (ret_word rt) p).
Proof.
  apply low_both; try (intros; discriminate).
  - (* return *) intros b G e t e' Hr He sc q' sc' H _. cbn [elab_stmt elab_opt] in H. unfold node_of in H. destruct (elab_in E sc e) as [p| | |]; try discriminate H. cbn [rbind] in H.
    injection H as <- _. eexists. split; [done|]. intros allow g g'. cbn [flow_stmt]. destruct (str_eqb _ _); [|discriminate]. by intros [= <-].
  - (* if *) intros b G c a s c' qa qs Hc _ IHa _ IHs sc q' sc' H Hr. cbn [elab_stmt] in H. destruct (elab_in E sc c) as [p| | |]; try discriminate H. cbn [rbind] in H.
    destruct (elab_stmt E sc a) as [[qa' sa]| | |] eqn:Ea; try discriminate H. cbn [rbind fst snd] in H.
    destruct (elab_stmt E sa s) as [[qs' sb]| | |] eqn:Es; try discriminate H. cbn [rbind fst snd] in H. injection H as <- _.
    cbn [returns] in Hr. apply andb_true_iff in Hr as [Ha Hs]. destruct (IHs _ _ _ Es Hs) as (ps & -> & S1).
    eexists. split; [done|]. intros allow g g'. rewrite flow_qif. destruct (flow_opt _ _ qa' g); try discriminate. cbn [rbind flow_opt]. apply S1.
  - (* block *) intros b G G1 l q _ IH sc q' sc' H Hr. rewrite elab_block in H. destruct (elab_list E ([] :: sc) l) as [l'| | |] eqn:El; try discriminate H. cbn [rbind] in H.
    injection H as <- _. destruct (IH _ _ El Hr) as (l0 & p & -> & S1). exists (QBlock (l0 ++ [p])). split; [by destruct l0|].
    intros allow g g'. change (flow_stmt (ret_word rt) allow (QBlock (l0 ++ [p])) g) with (gen_scope false (fold_res (flow_stmt (ret_word rt) allow) (l0 ++ [p])) g).
    unfold gen_scope. rewrite fold_app. destruct (fold_res _ l0 _) as [g1| | |]; try discriminate. cbn [rbind fold_res].
    destruct (flow_stmt _ allow p g1) as [g2| | |] eqn:E2; try discriminate. cbn [rbind]. intros [= <-]. by eapply S1.
  - intros b G G1 G2 s l q ql _ IHs _ IHl sc l' H Hr. cbn [elab_list] in H. destruct (elab_stmt E sc s) as [[q' sc1]| | |] eqn:Es; try discriminate H. cbn [rbind fst snd] in H.
    destruct (elab_list E sc1 l) as [l2| | |] eqn:El; try discriminate H. cbn [rbind] in H. injection H as <-. destruct l as [|s' l].
    + cbn [elab_list] in El. injection El as <-. destruct (IHs _ _ _ Es Hr) as (p & -> & S1). by exists [], p.
    + rewrite returns_cons in Hr. destruct (IHl _ _ El Hr) as (l0 & p & -> & S1). destruct q' as [q'|]; [by exists (q' :: l0), p|by exists l0, p].
Qed.
Lemma method_flows r th l l' sc b G q G' : low_all M r b G l q G' -> elab_list E sc l = Ok l' -> passes (fold_res (flow_stmt (ret_word r) false) l') ->
  (r <> None -> returns (YBlock l) = true) -> exists g, flow_method (ret_word r) th l' = Ok g.
Proof.
  intros Hl He Hp Hr. destruct (passes_scope _ Hp (Gst FNormal [])) as (g & H1 & H2). exists g. unfold flow_method. rewrite H1. cbn [rbind]. rewrite H2. cbn [g_thrown].
  rewrite bool_decide_true by done. cbn [negb andb]. destruct r as [t|]; [|done].
  destruct (proj2 (sure_return _) _ _ _ _ _ Hl _ _ He (Hr ltac:(done))) as (l1 & p & -> & S1).
  unfold gen_scope in H1. rewrite fold_app in H1. destruct (fold_res _ l1 _) as [g1| | |]; try discriminate H1. cbn [rbind fold_res] in H1.
  destruct (flow_stmt _ false p g1) as [g2| | |] eqn:E2; try discriminate H1. cbn [rbind] in H1. injection H1 as <-. rewrite (S1 _ _ _ E2). by rewrite andb_false_r.
Qed.
End Elab.
