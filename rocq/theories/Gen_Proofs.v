(** The generator's checks against what the interpreter does. *)
From Coq Require Import Floats.SpecFloat.
From Verif Require Import Base Base_Proofs Text_Model Tok_Model TypeTable TypeSys_Model Value_Model Interp_Model Interp_Eqs Interp_Hoare Gen_Model Gen_Spec.

(** ** Induction over statements *)
Lemma stmt_ind' (Q : stmt -> Prop) :
  Q SSkip -> (forall e, Q (SExpr e)) -> (forall e, Q (SAssert e)) -> (forall x e, Q (SAssign x e)) ->
  (forall l, Forall Q l -> Q (SBlock l)) -> Q SBreak -> Q SContinue -> (forall e, Q (SDelete e)) -> (forall e, Q (SExit e)) ->
  (forall i c it b, Q i -> Q it -> Q b -> Q (SFor i c it b)) ->
  (forall t x coll gi hn nx b, Q b -> Q (SForeach t x coll gi hn nx b)) ->
  (forall c a b, Q a -> Q b -> Q (SIf c a b)) -> (forall e, Q (SPrint e)) -> (forall e, Q (SReturn e)) ->
  (forall e cs d, Forall (fun c => Forall Q (snd c)) cs -> Forall Q d -> Q (SSwitch e cs d)) ->
  (forall e, Q (SThrow e)) ->
  (forall b cs fin, Forall Q b -> Forall (fun c => Forall Q (snd c)) cs -> (forall l, fin = Some l -> Forall Q l) -> Q (STry b cs fin)) ->
  (forall t x e, Q (SDecl t x e)) -> (forall c b, Q b -> Q (SWhile c b)) -> forall s, Q s.
Proof.
  intros H1 H2 H3 H4 H5 H6 H7 H8 H9 H10 H11 H12 H13 H14 H15 H16 H17 H18 H19.
  fix IH 1.
  assert (forall l, Forall Q l) as IHl.
  { fix IHl 1. intros [|s l]; constructor; [apply IH|apply IHl]. }
  intros [| | | | l | | | | |i c it b| |c a b| | |e cs d| |b cs fin| |c b].
  - apply H1. - apply H2. - apply H3. - apply H4.
  - apply H5, IHl.
  - apply H6. - apply H7. - apply H8. - apply H9.
  - apply H10; apply IH.
  - apply H11, IH.
  - apply H12; apply IH.
  - apply H13. - apply H14.
  - apply H15; [|apply IHl]. induction cs as [|[ce cb] cs IHcs]; constructor; [apply IHl|apply IHcs].
  - apply H16.
  - apply H17; [apply IHl| |].
    + induction cs as [|[d h] cs IHcs]; constructor; [apply IHl|apply IHcs].
    + destruct fin as [l0|]; intros l Hl; [injection Hl as <-; apply IHl|clear IHl IH; discriminate].
  - apply H18.
  - apply H19, IH.
Qed.

Lemma rbind_Ok {A B} (x : res A) (f : A -> res B) b : rbind x f = Ok b -> exists a, x = Ok a /\ f a = Ok b.
Proof. destruct x; simpl; try done. eauto. Qed.
Lemma fold_res_Ok {A} (f : A -> gst -> res gst) l g g' : fold_res f l g = Ok g' ->
  Forall (fun x => exists g1 g2, f x g1 = Ok g2) l.
Proof.
  revert g; induction l as [|x l IH]; intros g; simpl; [constructor|]. intros H.
  apply rbind_Ok in H as (g1 & E & H). constructor; eauto.
Qed.
Lemma gen_scope_Ok b f g g' : gen_scope b f g = Ok g' -> exists g1, f g1 = Ok g'.
Proof.
  unfold gen_scope. intros H. apply rbind_Ok in H as (g1 & E & H). exists (with_flow FNormal g).
  destruct b; [destruct (g_flow g1)|]; congruence.
Qed.

(** ** Placement *)
Lemma forallb_Forall_ {A} (f : A -> bool) l : forallb f l = true <-> Forall (fun x => f x = true) l.
Proof. rewrite forallb_forall, Forall_forall. by setoid_rewrite elem_of_list_In. Qed.
Lemma forallb_weaken {A} (f g : A -> bool) l :
  Forall (fun x => f x = true -> g x = true) l -> forallb f l = true -> forallb g l = true.
Proof. induction 1; simpl; [done|]. rewrite !andb_true_iff. naive_solver. Qed.
Lemma placed_mono s : placed false s = true -> placed true s = true.
Proof.
  induction s using stmt_ind'; simpl; try done.
  - by apply forallb_weaken.
  - rewrite !andb_true_iff. naive_solver.
  - rewrite !andb_true_iff. intros [[Hb Hc] Hf]. split; [split|].
    + revert Hb. by apply forallb_weaken.
    + revert Hc. apply forallb_weaken. eapply Forall_impl; [eassumption|]. intros [d h] Hh. by apply forallb_weaken.
    + destruct fin as [l|]; [|done]. revert Hf. apply forallb_weaken. by apply H1.
Qed.
Section Placement.
Context (ty : expr -> str) (rt : str).
Lemma placed_list allow l g g' :
  Forall (fun s => forall a g g', plain_steps s = true -> gen_stmt ty rt a s g = Ok g' -> placed a s = true) l ->
  forallb plain_steps l = true -> fold_res (gen_stmt ty rt allow) l g = Ok g' -> forallb (placed allow) l = true.
Proof.
  intros HF Hs Hg. apply forallb_Forall_. apply fold_res_Ok in Hg. apply forallb_Forall_ in Hs.
  rewrite Forall_forall in *. intros x Hx. destruct (Hg x Hx) as (g1 & g2 & E). eauto.
Qed.
Lemma gen_placed s : forall allow g g', plain_steps s = true -> gen_stmt ty rt allow s g = Ok g' -> placed allow s = true.
Proof.
  induction s using stmt_ind'; intros allow g g' Hs Hg; simpl in Hs |- *; try done.
  - simpl in Hg. apply gen_scope_Ok in Hg as [g1 Hg]. by eapply placed_list.
  - simpl in Hg. by destruct allow.
  - simpl in Hg. by destruct allow.
  - apply andb_true_iff in Hs as [[[[Hi Hit]%andb_true_iff Hs1]%andb_true_iff Hs2]%andb_true_iff Hs3].
    rewrite Hi, Hit. cbn [gen_stmt] in Hg. apply rbind_Ok in Hg as (g1 & E1 & Hg). apply rbind_Ok in Hg as (g2 & E2 & Hg). simpl.
    destruct s3; try (apply IHs3 in Hg; [|done]; destruct allow; [done|by apply placed_mono]).
    eapply (IHs3 true); [done|]. exact Hg.
  - cbn [gen_stmt] in Hg. 
    destruct s; try (apply IHs in Hg; [|done]; destruct allow; [done|by apply placed_mono]).
    eapply (IHs true); [done|]. exact Hg.
  - cbn [gen_stmt] in Hg. apply andb_true_iff in Hs as [H1 H2]. apply rbind_Ok in Hg as (g1 & E1 & Hg). apply andb_true_iff. eauto.
  - cbn [gen_stmt] in Hg. apply andb_true_iff in Hs as [H1 H2]. apply rbind_Ok in Hg as (g1 & E1 & Hg). apply andb_true_iff. split.
    + apply fold_res_Ok in E1. apply forallb_Forall_. apply forallb_Forall_ in H1. rewrite Forall_forall in *.
      intros [ce b] Hx. destruct (E1 _ Hx) as (ga & gb & E). apply gen_scope_Ok in E as [gc E].
      eapply placed_list; [apply (H _ Hx)|apply (H1 _ Hx)|exact E].
    + destruct d as [|s d]; [done|]. apply gen_scope_Ok in Hg as [gc E]. by eapply placed_list.
  - cbn [gen_stmt] in Hg. cbv zeta in Hg. apply andb_true_iff in Hs as [[Hs1 Hs2]%andb_true_iff Hs3].
    apply rbind_Ok in Hg as (g1 & E1 & Hg). apply rbind_Ok in Hg as (g2 & E2 & Hg). apply rbind_Ok in Hg as (g3 & E3 & Hg).
    rewrite !andb_true_iff. split; [split|].
    + apply gen_scope_Ok in E1 as [gc E]. by eapply placed_list.
    + apply fold_res_Ok in E2. apply forallb_Forall_. apply forallb_Forall_ in Hs2. rewrite Forall_forall in *.
      intros [d h] Hx. destruct (E2 _ Hx) as (ga & gb & E). apply gen_scope_Ok in E as [gc E].
      eapply placed_list; [apply (H0 _ Hx)|apply (Hs2 _ Hx)|exact E].
    + destruct fin as [l|]; [|done]. apply gen_scope_Ok in E3 as [gc E]. eapply placed_list; [by apply H1|done|exact E].
  - cbn [gen_stmt] in Hg.
    destruct s; try (apply IHs in Hg; [|done]; destruct allow; [done|by apply placed_mono]).
    eapply (IHs true); [done|]. exact Hg.
Qed.
End Placement.

(** ** Jumps never leave a method *)
Definition nj : pred := fun f _ => f <> FBreak /\ f <> FContinue.
Definition J (b : bool) : pred := fun f _ => b = true \/ (f <> FBreak /\ f <> FContinue).
Definition rj : pred := fun f _ => f = FThrow \/ f = FExit.
Definition all_placed (P : prog) : Prop :=
  (forall f m, In (f, m) (p_methods P) -> forallb (placed false) (m_body m) = true) /\
  (forall f m, In (f, m) (p_ctors P) -> forallb (placed false) (m_body m) = true).
Lemma find_method_In ms f n m : find_method ms f n = Some m -> In (f, m) ms.
Proof.
  induction ms as [|[g m'] ms IH]; simpl; [done|]. destruct (str_eqb f g && _) eqn:E; [|by right; apply IH].
  apply andb_true_iff in E as [E _]. apply str_eqb_eq in E as ->. intros [= ->]. by left.
Qed.
Lemma find_catch_In P e cs c : find_catch P e cs = Some c -> In c cs.
Proof.
  induction cs as [|[d b] cs IH]; simpl; [done|]. destruct d as [[t x]|].
  - destruct e as [o|]; [|auto]. destruct (p_inst _ _ _); [|auto]. intros [= <-]. by left.
  - intros [= <-]. by left.
Qed.

Ltac hk := first [apply keeps_lookup|apply keeps_lvalue|apply keeps_store|apply keeps_define|apply keeps_push|apply keeps_pop
  |apply keeps_push_frame|apply keeps_pop_frame|apply keeps_get_ret|apply keeps_set_ret|apply keeps_emit|apply keeps_lift
  |apply keeps_ret|apply keeps_crash|apply keeps_nofuel].
Ltac hb := lazymatch goal with
  | |- triple _ (bind (set_flow ?f) _) _ _ => eapply t_bind; [eapply (t_set_flow f _ (fun _ => _)); intros; eassumption|intros ?]
  | |- triple _ (bind get_flow _) _ _ => eapply t_bind; [apply t_get_flow|intros ?]
  | |- triple _ (bind get_exn _) _ _ => eapply t_bind; [apply t_get_exn|intros ?]
  | |- triple _ (bind ?m _) _ _ => eapply t_bind; [hk|intros ?]
  end.

Ltac hs := eapply t_bind; [match goal with H : forall _, _ |- _ => apply H end|intros ?].

Section Jumps.
Context (P : prog) (HP : all_placed P).
Record jumps (n : nat) : Prop := {
  j_eval : forall e dst, triple nj (eval P n e dst) (fun _ => nj) rj;
  j_args : forall es, triple nj (eval_args P n es) (fun _ => nj) rj;
  j_call : forall f vs dst, triple nj (call P n f vs dst) (fun _ => nj) rj;
  j_new : forall c vs, triple nj (construct P n c vs) (fun _ => nj) rj;
  j_exec : forall m vs dst, forallb (placed false) (m_body m) = true -> triple nj (execute P n m vs dst) (fun _ => nj) rj;
  j_visit : forall b s, placed b s = true -> triple nj (visit P n s) (fun _ => J b) rj;
  j_process : forall b l, forallb (placed b) l = true -> triple (J b) (process P n l) (fun _ => J b) rj;
  j_block : forall b l, forallb (placed b) l = true -> triple (J b) (block P n l) (fun _ => J b) rj;
  j_handle : forall b cs, forallb (fun c => match c with (_, h) => forallb (placed b) h end) cs = true ->
    triple (J b) (handle P n cs) (fun _ => J b) rj;
  j_finish : forall b fin, match fin with Some l => forallb (placed b) l | None => true end = true ->
    triple (J b) (finish P n fin) (fun _ => J b) rj;
  j_while : forall c s dst, placed true s = true -> triple nj (while_loop P n c s dst) (fun _ => nj) rj;
  j_for : forall c it s dst, placed false it = true -> placed true s = true ->
    triple nj (for_loop P n c it s dst) (fun _ => nj) rj;
  j_foreach : forall t x hn nx s, placed true s = true -> triple nj (foreach_loop P n t x hn nx s) (fun _ => nj) rj;
  j_switch : forall e cs d dst, forallb (fun c => match c with (_, b) => forallb (placed true) b end) cs = true ->
    forallb (placed true) d = true -> triple nj (switch_loop P n e cs d dst) (fun _ => nj) rj;
  j_cases : forall v cs, forallb (fun c => match c with (_, b) => forallb (placed true) b end) cs = true ->
    triple nj (switch_cases P n v cs) (fun m => match m with None => nj | Some _ => J true end) rj
}.

Lemma nj_normal : forall e, nj FNormal e. Proof. done. Qed.
Lemma nj_throw : forall e, nj FThrow e. Proof. done. Qed.
Lemma nj_J b f e : nj f e -> J b f e. Proof. by right. Qed.
Lemma J_nj f e : J false f e -> nj f e. Proof. by intros [?|?]. Qed.
Lemma J_true f e : J true f e. Proof. by left. Qed.
Lemma J_normal b e : J b FNormal e. Proof. by right. Qed.
Lemma rj_nj f e : rj f e -> nj f e. Proof. by intros [-> | ->]. Qed.
Lemma rj_J b f e : rj f e -> J b f e. Proof. intros H. by apply nj_J, rj_nj. Qed.
Hint Resolve nj_normal nj_throw nj_J J_nj J_true J_normal rj_nj rj_J : jdb.

Lemma jumps_ok n : jumps n.
Proof.
  induction n as [|n IH].
  { constructor; intros; rewrite ?eval_0, ?eval_args_0, ?call_0, ?construct_0, ?execute_0, ?visit_0, ?process_0, ?block_0, ?while_loop_0,
      ?for_loop_0, ?foreach_loop_0, ?switch_loop_0, ?switch_cases_0, ?handle_0, ?finish_0; apply t_nofuel. }
  destruct IH as [He Ha Hc Hn Hx Hv Hp Hb Hh Hf Hw Hfor Hfe Hs Hcs].
  assert (forall r : obj, triple nj (promote r) (fun _ => nj) rj) as Hpro.
  { intros r. unfold promote. hb. apply (t_pre _ nj); [tauto|].
    destruct a;
      try (by eapply t_bind; [apply (t_set_flow _ _ (fun _ => nj)); done|intros; apply keeps_ret]);
      apply t_raise; intros; unfold rj; auto. }
  constructor.
  - intros e dst. rewrite eval_S. destruct e.
    + hk.
    + eapply t_bind; [hk|]. intros [v|]; [hk|].
      eapply t_bind; [apply (t_set_exn _ _ (fun _ => nj)); done|]. intros ?. apply t_raise. by left.
    + hs. hs. hb. hk.
    + hs. cbv zeta. destruct op; repeat (first [hk | hs | match goal with |- triple _ (if ?c then _ else _) _ _ => destruct c end]).
    + hs. hk.
    + do 3 hb. hk.
    + eapply t_bind; [apply He|]. intros v. destruct (is_true v); apply He.
    + eapply t_bind; [apply He|]. intros v. destruct (is_true v); [hk|apply He].
    + hs. hb. hk.
    + hb. eapply t_try; [by apply He|intros v; repeat hb; hk|apply rj_nj].
    + eapply t_bind; [apply Ha|]. intros vs. apply Hc.
    + eapply t_bind; [apply Ha|]. intros vs. apply Hn.
  - intros es. rewrite eval_args_S. destruct es; [hk|].
    eapply t_bind; [apply He|intros v]. eapply t_bind; [apply Ha|intros vs]. hk.
  - intros f vs dst. rewrite call_S. destruct (find_method _ _ _) as [m|] eqn:E.
    { eapply t_bind; [|intros ?; apply Hpro]. apply Hx. apply find_method_In in E. by eapply (proj1 HP). }
    destruct (p_ext P f vs) as [[v| |what]|].
    + eapply t_bind; [apply (t_set_flow _ _ (fun _ => nj)); done|intros; apply Hpro].
    + eapply t_bind; [apply (t_set_flow _ _ (fun _ => nj)); done|intros; apply Hpro].
    + eapply t_bind; [apply (t_set_exn _ _ (fun _ => nj)); done|intros].
      eapply t_bind; [apply (t_set_flow _ _ (fun _ => nj)); done|intros; apply Hpro].
    + eapply t_bind; [apply (t_set_exn _ _ (fun _ => nj)); done|intros]. apply t_raise. by left.
  - intros c vs. rewrite construct_S. destruct (find_method _ _ _) as [m|] eqn:E; [|hk].
    assert (triple nj (execute P n m vs anon) (fun _ => nj) rj) as Hm.
    { apply Hx. apply find_method_In in E. by eapply (proj2 HP). }
    intros s Hs0. cbv zeta.
    specialize (Hm (St (s_frames s) (World (w_globals (s_world s)) (w_exn (s_world s)) (w_out (s_world s)) (w_next (s_world s) + 1)) FNormal) ltac:(done)).
    destruct (execute _ _ _ _ _ _) as [[] s']; done.
  - intros m vs dst Hm. rewrite execute_S. do 2 hb. eapply (t_bind _ _ _ (fun _ => nj)).
    { apply (t_conseq _ (J false) _ _ (fun _ => J false) _ rj); [by apply Hp|eauto with jdb..]. }
    intros ?. hb. hk.
  - intros b s Hpl. rewrite visit_S.
    assert (forall e dst (k : obj -> M unit), (forall v, triple nj (k v) (fun _ => J b) rj) ->
              triple nj (try_control (eval P n e dst) tt k) (fun _ => J b) rj) as Htry.
    { intros e dst k Hk. eapply t_try; [apply He|apply Hk|apply rj_J]. }
    assert (forall m : M unit, triple nj m (fun _ => nj) rj -> triple nj m (fun _ => J b) rj) as Hw1.
    { intros m H. eapply t_post; [apply H|]. intros. by right. }
    destruct s; cbn [placed] in Hpl.
    + apply t_ret. by right.
    + apply Htry. intros v. apply Hw1. hk.
    + apply Htry. intros v. apply Hw1. destruct (is_true v); hk.
    + hb. apply Htry. intros v. apply Hw1. repeat hb. hk.
    + eapply t_pre; [|by apply Hb]. intros. by right.
    + apply t_set_flow. intros. subst. by left.
    + apply t_set_flow. intros. subst. by left.
    + apply Htry. intros v. apply Hw1. hk.
    + apply Htry. intros v. eapply t_bind; [apply (t_set_exn _ _ (fun _ => nj)); done|intros]. apply t_raise. by right.
    + apply andb_true_iff in Hpl as [[H1 H2]%andb_true_iff H3]. hb. eapply t_bind.
      { eapply (t_post _ _ (fun _ => J false)); [by apply Hv|]. intros ? f e Hq. exact (J_nj _ _ Hq). }
      intros ?. apply Hw1. by apply Hfor.
    + destruct coll as [e|].
      * apply Htry. intros v. hb. eapply t_bind; [apply Hc|]. intros o. hb. apply Hw1. by apply Hfe.
      * eapply t_bind; [apply Hc|]. intros o. apply Hw1. by apply Hfe.
    + apply andb_true_iff in Hpl as [H1 H2]. apply Htry. intros v. destruct (is_true v); auto.
    + apply Htry. intros v. apply Hw1. hk.
    + destruct e as [e|].
      * apply Htry. intros v. repeat hb. apply t_set_flow. by right.
      * apply t_set_flow. by right.
    + apply andb_true_iff in Hpl as [H1 H2]. apply Hw1. by apply Hs.
    + destruct e as [e|].
      * apply Htry. intros v. eapply t_bind; [apply (t_set_exn _ _ (fun _ => nj)); done|intros]. apply t_set_flow. by right.
      * apply t_set_flow. by right.
    + apply andb_true_iff in Hpl as [[H1 H2]%andb_true_iff H3].
      eapply t_bind; [eapply t_pre; [|by apply (Hb b)]; intros; by right|intros ?].
      eapply t_bind; [by apply Hh|intros ?]. by apply Hf.
    + hb. destruct e as [e|]; [|apply Hw1; hk]. apply Htry. intros v. apply Hw1. repeat hb. hk.
    + apply Hw1. by apply Hw.
  - intros b l Hl. rewrite process_S. destruct l as [|s l]; [hk|]. cbn [forallb] in Hl. apply andb_true_iff in Hl as [H1 H2].
    hb. destruct a; try (apply t_ret; tauto). eapply t_bind; [eapply t_pre; [|by apply (Hv b)]|].
    + intros f e [_ ->]. done.
    + intros ?. by apply Hp.
  - intros b l Hl. rewrite block_S. hb. eapply t_bind; [by apply (Hp b)|intros ?]. hk.
  - intros b cs Hl. rewrite handle_S. hb. destruct a; try (apply t_ret; tauto).
    eapply (t_bind _ _ _ (fun _ => J b)); [destruct cs; [apply t_set_flow; intros; apply J_normal|apply t_ret; tauto]|intros ?].
    hb. destruct (find_catch P a0 cs) as [[d h]|] eqn:E; [|apply t_ret; tauto].
    apply find_catch_In in E. rewrite forallb_forall in Hl. specialize (Hl _ E). cbn in Hl.
    hb. eapply t_bind; [|intros ?].
    { instantiate (1 := fun _ => J b). apply (t_pre _ (J b)); [tauto|]. destruct d as [[t x]|], a0; try hk. repeat hb. hk. }
    eapply t_bind; [apply (t_set_flow _ _ (fun _ => J b)); intros; apply J_normal|intros ?].
    eapply t_bind; [by apply Hb|intros ?]. hk.
  - intros b fin Hl. rewrite finish_S. hb. rename a into pend.
    apply (t_pure _ _ _ _ (J b pend None)); [intros f e [H1 <-]; exact H1|]. intros Hpend.
    eapply (t_bind _ _ _ (fun _ => J b)).
    { destruct fin as [l|]; [|apply t_ret; tauto]. eapply t_bind; [apply (t_set_flow _ _ (fun _ => J b)); intros; apply J_normal|intros ?].
      by apply Hb. }
    intros []. hb. destruct a; try (apply t_ret; tauto). apply t_set_flow. done.
  - intros c s dst Hpl. rewrite while_loop_S. eapply t_try; [apply He| |apply rj_nj].
    intros v. destruct (negb _); [hk|]. eapply t_bind; [by apply (Hv true)|intros []]. hb.
    destruct a; try (apply t_set_flow; done); try (apply t_ret; intros f e [_ ->]; done).
    all: eapply t_bind; [apply (t_set_flow _ _ (fun _ => nj)); done|intros ?; by apply Hw].
  - intros c it s dst Hit Hpl. rewrite for_loop_S. cbv zeta.
    assert (forall v, triple nj (do_ visit P n s; do f <- get_flow;
      match f with
      | FNormal | FContinue => do_ set_flow FNormal; do_ visit P n it; for_loop P n c it s v
      | FBreak => set_flow FNormal | _ => ret tt end) (fun _ => nj) rj) as Hround.
    { intros v. eapply t_bind; [by apply (Hv true)|intros []]. hb.
      destruct a; try (apply t_set_flow; done); try (apply t_ret; intros f e [_ ->]; done).
      all: eapply t_bind; [apply (t_set_flow _ _ (fun _ => nj)); done|intros ?].
      all: eapply t_bind; [|intros ?; by apply Hfor].
      all: eapply (t_post _ _ (fun _ => J false)); [by apply Hv|]; intros ? f e Hq; exact (J_nj _ _ Hq). }
    destruct c as [c|]; [|apply Hround]. eapply t_try; [apply He| |apply rj_nj].
    intros v. destruct (negb _); [hk|apply Hround].
  - intros t x hn nx s Hpl. rewrite foreach_loop_S. hb. eapply t_bind; [apply Hc|intros v]. hb.
    destruct (negb _); [hk|]. do 3 hb. eapply t_bind; [apply Hc|intros o]. do 2 hb.
    eapply t_bind; [by apply (Hv true)|intros []]. do 2 hb.
    destruct a7; try (apply t_set_flow; done); try (apply t_ret; intros f e [_ ->]; done).
    all: eapply t_bind; [apply (t_set_flow _ _ (fun _ => nj)); done|intros ?; by apply Hfe].
  - intros e cs d dst H1 H2. rewrite switch_loop_S. cbv zeta.
    assert (forall v (b : bool), triple (J true) (do_ (if b then ret tt else block P n d); do f <- get_flow;
        match f with
        | FNormal | FBreak => set_flow FNormal
        | FContinue => do_ set_flow FNormal; switch_loop P n e cs d v
        | _ => ret tt end) (fun _ => nj) rj) as Htail.
    { intros v b. eapply (t_bind _ _ _ (fun _ => J true)); [destruct b; [hk|by apply Hb]|intros []]. hb.
      destruct a; try (apply t_set_flow; done); try (apply t_ret; intros f e' [_ ->]; done).
      eapply t_bind; [apply (t_set_flow _ _ (fun _ => nj)); done|intros ?; by apply Hs]. }
    destruct cs as [|c cs0]; [eapply t_pre; [|apply (Htail dst false)]; intros; apply J_true|].
    eapply t_try; [apply He| |apply rj_nj]. intros v. eapply t_bind; [by apply Hcs|].
    intros [b|]; [apply (Htail v b)|hk].
  - intros v cs H. rewrite switch_cases_S. destruct cs as [|[ce b] cs]; [apply t_ret; intros; apply J_true|].
    cbn [forallb] in H. apply andb_true_iff in H as [H1 H2].
    eapply t_try; [apply He| |intros f e Hr; exact (rj_nj _ _ Hr)].
    intros cv. hb. destruct a; [|by apply Hcs]. eapply t_bind; [eapply t_pre; [|by apply (Hb true)]; intros; apply J_true|].
    intros ?. apply t_ret. intros; apply J_true.
Qed.
End Jumps.

(** ** Only exceptions and exit are raised, whatever the program *)
Definition top : pred := fun _ _ => True.
Record raises (P : prog) (n : nat) : Prop := {
  r_eval : forall e dst, triple top (eval P n e dst) (fun _ => top) rj;
  r_args : forall es, triple top (eval_args P n es) (fun _ => top) rj;
  r_call : forall f vs dst, triple top (call P n f vs dst) (fun _ => top) rj;
  r_new : forall c vs, triple top (construct P n c vs) (fun _ => top) rj;
  r_exec : forall m vs dst, triple top (execute P n m vs dst) (fun _ => top) rj;
  r_visit : forall s, triple top (visit P n s) (fun _ => top) rj;
  r_process : forall l, triple top (process P n l) (fun _ => top) rj;
  r_block : forall l, triple top (block P n l) (fun _ => top) rj;
  r_handle : forall cs, triple top (handle P n cs) (fun _ => top) rj;
  r_finish : forall fin, triple top (finish P n fin) (fun _ => top) rj;
  r_while : forall c s dst, triple top (while_loop P n c s dst) (fun _ => top) rj;
  r_for : forall c it s dst, triple top (for_loop P n c it s dst) (fun _ => top) rj;
  r_foreach : forall t x hn nx s, triple top (foreach_loop P n t x hn nx s) (fun _ => top) rj;
  r_switch : forall e cs d dst, triple top (switch_loop P n e cs d dst) (fun _ => top) rj;
  r_cases : forall v cs, triple top (switch_cases P n v cs) (fun _ => top) rj
}.
Ltac rstep := match goal with
  | |- triple _ (bind _ _) _ _ => eapply (t_bind _ _ _ (fun _ => top)); [|intros ?]
  | |- triple _ (try_control _ _ _) _ _ => eapply (t_try _ _ _ _ (fun _ => top) rj); [|intros ?|done]
  | |- triple _ (raise _) _ _ => apply t_raise; intros; unfold rj; by auto
  | |- triple _ (set_flow _) _ _ => by apply t_set_flow
  | |- triple _ (set_exn _) _ _ => by apply t_set_exn
  | |- triple _ get_flow _ _ => by (intros ? ?)
  | |- triple _ get_exn _ _ => by (intros ? ?)
  | |- triple _ (promote _) _ _ => unfold promote
  | H : forall _, triple _ _ _ _ |- _ => apply H
  | H : forall _ _, triple _ _ _ _ |- _ => apply H
  | H : forall _ _ _, triple _ _ _ _ |- _ => apply H
  | H : forall _ _ _ _, triple _ _ _ _ |- _ => apply H
  | H : forall _ _ _ _ _, triple _ _ _ _ |- _ => apply H
  | |- triple _ _ _ _ => hk
  | |- context [match ?x with _ => _ end] => destruct x
  end.
Lemma raises_ok P n : raises P n.
Proof.
  induction n as [|n IH].
  { constructor; intros; rewrite ?eval_0, ?eval_args_0, ?call_0, ?construct_0, ?execute_0, ?visit_0, ?process_0, ?block_0, ?while_loop_0,
      ?for_loop_0, ?foreach_loop_0, ?switch_loop_0, ?switch_cases_0, ?handle_0, ?finish_0; apply t_nofuel. }
  destruct IH. constructor; intros; rewrite ?eval_S, ?eval_args_S, ?call_S, ?construct_S, ?execute_S, ?visit_S, ?process_S, ?block_S, ?while_loop_S,
      ?for_loop_S, ?foreach_loop_S, ?switch_loop_S, ?switch_cases_S, ?handle_S, ?finish_S; cbv zeta.
  4: { destruct (find_method _ _ _) as [m|]; [|hk]. intros s _. 
    destruct (execute _ _ _ _ _ _) as [[] s']; done. }
  all: repeat rstep.
Qed.

(** ** Statements that cannot be left through their end *)
Definition nn : pred := fun f _ => f <> FNormal.
Lemma t_weak {A} (p : pred) (m : M A) (r : pred) : triple top m (fun _ => top) r -> triple p m (fun _ => top) r.
Proof. intros H. eapply t_pre; [|exact H]. done. Qed.
Lemma t_keeps {A} (p : pred) (m : M A) (q : A -> pred) (r : pred) : keeps m -> (forall a f e, p f e -> q a f e) -> triple p m q r.
Proof. intros H Hq. eapply t_post; [apply H|done]. Qed.
Record leaving (P : prog) (n : nat) : Prop := {
  l_visit : forall s, leaves s = true -> triple top (visit P n s) (fun _ => nn) rj;
  l_process : forall l, existsb leaves l = true -> triple top (process P n l) (fun _ => nn) rj;
  l_block : forall l, existsb leaves l = true -> triple top (block P n l) (fun _ => nn) rj;
  l_handle : forall cs, cs <> [] -> forallb (fun c => match c with (_, h) => existsb leaves h end) cs = true ->
    triple nn (handle P n cs) (fun _ => nn) rj;
  l_finish : forall fin, match fin with Some l => existsb leaves l | None => false end = true ->
    triple top (finish P n fin) (fun _ => nn) rj;
  l_finish' : forall fin, triple nn (finish P n fin) (fun _ => nn) rj
}.
Lemma rj_nn f e : rj f e -> nn f e. Proof. by intros [-> | ->]. Qed.
Lemma leaving_ok P n : leaving P n.
Proof.
  induction n as [|n IH].
  { constructor; intros; rewrite ?visit_0, ?process_0, ?block_0, ?handle_0, ?finish_0; apply t_nofuel. }
  destruct IH as [Hv Hp Hb Hh Hf Hf']. destruct (raises_ok P n) as [Re _ _ _ _ Rv Rp Rb Rh Rf _ _ _ _ _].
  assert (forall e dst (k : obj -> M unit), (forall v, triple top (k v) (fun _ => nn) rj) ->
              triple top (try_control (eval P n e dst) tt k) (fun _ => nn) rj) as Htry.
  { intros e dst k Hk. eapply t_try; [apply Re|apply Hk|apply rj_nn]. }
  constructor.
  - intros s Hs. rewrite visit_S. destruct s; try done; cbn [leaves] in Hs.
    + by apply Hb.
    + apply Htry. intros v. eapply (t_bind _ _ _ (fun _ => top)); [by apply t_set_exn|intros ?]. apply t_raise. by right.
    + apply andb_true_iff in Hs as [H1 H2]. apply Htry. intros v. destruct (is_true v); auto.
    + destruct e as [e|]; [|by apply t_set_flow]. apply Htry. intros v. repeat hb. by apply t_set_flow.
    + destruct e as [e|]; [|by apply t_set_flow]. apply Htry. intros v.
      eapply (t_bind _ _ _ (fun _ => top)); [by apply t_set_exn|intros ?]. by apply t_set_flow.
    + apply orb_true_iff in Hs as [Hs|[[H1 H2]%andb_true_iff H3]%andb_true_iff].
      * eapply t_bind; [apply Rb|intros ?]. eapply t_bind; [apply Rh|intros ?]. by apply Hf.
      * eapply t_bind; [by apply Hb|intros ?]. eapply t_bind; [apply Hh|intros ?; apply Hf'].
        -- apply negb_true_iff, bool_decide_eq_false in H2. done.
        -- done.
  - intros l Hl. rewrite process_S. destruct l as [|s l]; [done|]. cbn [existsb] in Hl. hb.
    destruct a; try (apply t_ret; intros f e [_ ->]; done).
    apply orb_true_iff in Hl as [Hl|Hl].
    + eapply t_bind; [apply (t_pre _ top); [done|by apply Hv]|intros []]. destruct n as [|n].
      { rewrite process_0. apply t_nofuel. }
      rewrite process_S. destruct l as [|s' l']; [apply t_ret; done|]. hb. 
      destruct a; try (apply t_ret; tauto). intros s0 [Hs0 Hn]. by destruct Hs0.
    + eapply t_bind; [apply (t_pre _ top); [done|by apply Rv]|intros []]. by apply Hp.
  - intros l Hl. rewrite block_S. hb. eapply t_bind; [by apply Hp|intros []]. hk.
  - intros cs Hne Hl. rewrite handle_S. hb. destruct a; try (apply t_ret; tauto).
    eapply (t_bind _ _ _ (fun _ f e => nn f e /\ f = FThrow)); [destruct cs; [done|hk]|intros []]. hb.
    destruct (find_catch P a cs) as [[d h]|] eqn:E; [|apply t_ret; tauto].
    apply find_catch_In in E. rewrite forallb_forall in Hl. specialize (Hl _ E). cbn in Hl.
    eapply (t_bind _ _ _ (fun _ => top)); [by apply t_keeps; [apply keeps_push|]|intros []].
    eapply (t_bind _ _ _ (fun _ => top)); [|intros []].
    { destruct d as [[t x]|], a; try hk. repeat hb. hk. }
    eapply (t_bind _ _ _ (fun _ => top)); [by apply t_set_flow|intros []].
    eapply t_bind; [by apply Hb|intros []]. hk.
  - intros fin Hl. rewrite finish_S. hb. destruct fin as [l|]; [|done].
    eapply (t_bind _ _ _ (fun _ => nn)).
    { eapply (t_bind _ _ _ (fun _ => top)); [by apply t_set_flow|intros []]. by apply Hb. }
    intros []. hb. destruct a0; try (apply t_ret; tauto). intros s0 [Hs0 Hn]. by destruct Hs0.
  - intros fin. rewrite finish_S. hb. rename a into pend.
    apply (t_pure _ _ _ _ (nn pend None)); [intros f e [H1 <-]; exact H1|]. intros Hpend.
    eapply (t_bind _ _ _ (fun _ => top)).
    { destruct fin as [l|]; [|by apply t_ret]. eapply (t_bind _ _ _ (fun _ => top)); [by apply t_set_flow|intros []]. apply Rb. }
    intros []. hb. destruct a; try (apply t_ret; intros f e [_ ->]; done). apply t_set_flow. done.
Qed.

(** ** Exceptions of throw statements *)
Section Thrown.
Context (P : prog) (ty : expr -> str) (rt : str) (foreign : obj -> Prop).
(** Types of the exceptions that can leave a (tame) statement. *)
Fixpoint esc (s : stmt) : list str :=
  match s with
  | SThrow (Some e) => [ty e]
  | SBlock l => concat (map esc l)
  | SFor i _ it b => esc i ++ esc it ++ esc b
  | SWhile _ b => esc b
  | SIf _ a b => esc a ++ esc b
  | SSwitch _ cs d => concat (map (fun c => match c with (_, b) => concat (map esc b) end) cs) ++ concat (map esc d)
  | STry b cs fin =>
      List.filter (fun t => match cs with [] => false | _ => forallb (fun c => match fst c with Some (t', _) => negb (str_eqb t' t) | None => false end) cs end)
        (concat (map esc b))
  | _ => []
  end.
Definition G (L : list str) : pred := fun f e =>
  f = FThrow -> exists o, e = Some o /\ (foreign o \/ exists t, t ∈ L /\ p_inst P (o_type o) t = true).
Lemma G_mono L L' f e : L ⊆ L' -> G L f e -> G L' f e.
Proof. intros HL H Hf. destruct (H Hf) as (o & Ho & [?|(t & Ht & Hi)]); exists o; split; eauto 10. Qed.
Lemma G_normal L e : G L FNormal e. Proof. done. Qed.

Definition fine (s : stmt) : Prop := (forall e, In e (exprs s) -> only_foreign P foreign e) /\ (forall e, In (Some e) (throws s) -> typed P ty e).
Lemma fine_list l : Forall fine l <->
  (forall e, In e (concat (map exprs l)) -> only_foreign P foreign e) /\ (forall e, In (Some e) (concat (map throws l)) -> typed P ty e).
Proof.
  split.
  - intros H. rewrite Forall_forall in H. split; intros e (x & Hx & He)%in_concat; apply in_map_iff in Hx as (s & <- & Hs);
      apply elem_of_list_In in Hs; destruct (H s Hs) as [H1 H2]; auto.
  - intros [H1 H2]. apply Forall_forall. intros s Hs%elem_of_list_In. split; intros e He; [apply H1|apply H2]; apply in_concat.
    + exists (exprs s). split; [by apply in_map|done].
    + exists (throws s). split; [by apply in_map|done].
Qed.

Lemma g_eval L e n dst : only_foreign P foreign e -> triple (G L) (eval P n e dst) (fun _ => G L) (G L).
Proof.
  intros H s Hs. specialize (H n dst s). cbv zeta in H. unfold on in *.
  destruct (eval P n e dst s) as [[v|f| | |] s']; try done.
  - intros Hf. specialize (H Hf) as [[H1 H2]|(o & H1 & H2)].
    + rewrite H2. by apply Hs.
    + exists o. eauto.
  - intros ->. destruct H as [[H1 H2]|(o & H1 & H2)].
    + rewrite H2. by apply Hs.
    + exists o. eauto.
Qed.

Definition RX : pred := fun f _ => f = FExit.
Record escaping (n : nat) : Prop := {
  e_visit : forall s L, tame s = true -> fine s -> esc s ⊆ L -> triple (G L) (visit P n s) (fun _ => G L) RX;
  e_process : forall l L, forallb tame l = true -> Forall fine l -> concat (map esc l) ⊆ L -> triple (G L) (process P n l) (fun _ => G L) RX;
  e_block : forall l L, forallb tame l = true -> Forall fine l -> concat (map esc l) ⊆ L -> triple (G L) (block P n l) (fun _ => G L) RX;
  e_while : forall c s dst L, only_foreign P foreign c -> tame s = true -> fine s -> esc s ⊆ L -> triple (G L) (while_loop P n c s dst) (fun _ => G L) RX;
  e_for : forall c it s dst L, (forall e, c = Some e -> only_foreign P foreign e) -> tame it = true -> fine it -> esc it ⊆ L ->
    tame s = true -> fine s -> esc s ⊆ L -> triple (G L) (for_loop P n c it s dst) (fun _ => G L) RX;
  e_switch : forall e cs d dst L, only_foreign P foreign e ->
    Forall (fun c => only_foreign P foreign (fst c) /\ forallb tame (snd c) = true /\ Forall fine (snd c) /\ concat (map esc (snd c)) ⊆ L) cs ->
    forallb tame d = true -> Forall fine d -> concat (map esc d) ⊆ L ->
    triple (G L) (switch_loop P n e cs d dst) (fun _ => G L) RX;
  e_cases : forall v cs L,
    Forall (fun c => only_foreign P foreign (fst c) /\ forallb tame (snd c) = true /\ Forall fine (snd c) /\ concat (map esc (snd c)) ⊆ L) cs ->
    triple (G L) (switch_cases P n v cs) (fun _ => G L) RX
}.
Lemma no_throws_esc s : tame s = true -> throws s = [] -> esc s = [].
Proof.
  assert (forall l, Forall (fun s => tame s = true -> throws s = [] -> esc s = []) l -> forallb tame l = true ->
    concat (map throws l) = [] -> concat (map esc l) = []) as Hl.
  { induction 1 as [|s0 l Hs Hl IH]; [done|]. cbn. rewrite andb_true_iff. intros [H1 H2] [H3 H4]%app_eq_nil. by rewrite Hs, IH. }
  induction s using stmt_ind'; intros Ht Hn; cbn [tame throws esc] in *; try done; eauto;
    repeat match goal with H : _ && _ = true |- _ => apply andb_true_iff in H as [? ?] end;
    repeat match goal with H : _ ++ _ = [] |- _ => apply app_eq_nil in H as [? ?] end.
  - rewrite IHs1, IHs2, IHs3; done.
  - rewrite IHs1, IHs2; done.
  - rewrite (Hl d); [|done..]. rewrite app_nil_r. clear d H0 H2 H4. induction H as [|[ce b] cs Hc Hcs IH]; [done|].
    cbn in *. apply andb_true_iff in H1 as [? ?]. apply app_eq_nil in H3 as [? ?]. rewrite (Hl b), IH; done.
  - rewrite (Hl b); done.
Qed.
Lemma in_concat_map {A B} (f : A -> list B) l x y : In x l -> In y (f x) -> In y (concat (map f l)).
Proof. intros Hx Hy. apply in_concat. exists (f x). split; [by apply in_map|done]. Qed.
Lemma sub_concat_map {A} (f : A -> list str) l L x : In x l -> concat (map f l) ⊆ L -> f x ⊆ L.
Proof. intros Hx Hs y Hy. apply Hs. apply elem_of_list_In. eapply in_concat_map; [done|]. by apply elem_of_list_In. Qed.

Lemma find_catch_None e cs : find_catch P e cs = None ->
  Forall (fun c => match fst c with Some (t, _) => forall o, e = Some o -> p_inst P (o_type o) t = false | None => False end) cs.
Proof.
  induction cs as [|[d b] cs IH]; [constructor|]. cbn. destruct d as [[t x]|]; [|done]. destruct e as [o|].
  - destruct (p_inst _ _ _) eqn:E; [done|]. intros H. constructor; [|by apply IH]. cbn. by intros ? [= <-].
  - intros H. constructor; [|by apply IH]. done.
Qed.

Ltac sub H := let x := fresh in let Hx := fresh in intros x Hx; apply H; rewrite ?elem_of_app; auto.
Lemma escaping_ok n : escaping n.
Proof.
  induction n as [n IHn] using lt_wf_ind. destruct n as [|n].
  { constructor; intros; rewrite ?visit_0, ?process_0, ?block_0, ?while_loop_0,
      ?for_loop_0, ?switch_loop_0, ?switch_cases_0; apply t_nofuel. }
  assert (forall m, S m = n -> forall l L, forallb tame l = true -> Forall fine l -> concat (map esc l) ⊆ L -> triple (G L) (block P m l) (fun _ => G L) RX) as Hbb.
  { intros m <-. apply (e_block m (IHn m ltac:(lia))). }
  destruct (IHn n ltac:(lia)) as [Hv Hp Hb Hw Hfor Hs Hcs]. clear IHn.
  assert (forall L e dst (k : obj -> M unit), only_foreign P foreign e -> (forall v, triple (G L) (k v) (fun _ => G L) RX) ->
              triple (G L) (try_control (eval P n e dst) tt k) (fun _ => G L) RX) as Htry.
  { intros L e dst k He Hk. eapply t_try; [by apply g_eval|apply Hk|done]. }
  constructor.
  - intros s L Ht Hfine HL. destruct Hfine as [Hf1 Hf2]. rewrite visit_S. destruct s; cbn [tame exprs throws esc] in *.
    + hk.
    + apply Htry; [apply Hf1; by left|]. intros v. hk.
    + apply Htry; [apply Hf1; by left|]. intros v. destruct (is_true v); hk.
    + hb. apply Htry; [apply Hf1; by left|]. intros v. repeat hb. hk.
    + apply Hb; [done|by apply fine_list|done].
    + by apply t_set_flow.
    + by apply t_set_flow.
    + apply Htry; [apply Hf1; by left|]. intros v. hk.
    + apply Htry; [apply Hf1; by left|]. intros v. eapply (t_bind _ _ _ (fun _ => top)); [by apply t_set_exn|intros []]. by apply t_raise.
    + apply andb_true_iff in Ht as [[Ht1 Ht2]%andb_true_iff Ht3].
      hb. eapply t_bind; [apply Hv; [done| |sub HL]|intros []].
      { split; intros e He; [apply Hf1|apply Hf2]; apply in_or_app; by left. }
      apply Hfor; [|done| |sub HL|done| |sub HL].
      * intros e ->. apply Hf1. rewrite !in_app_iff. right. left. by left.
      * split; intros e He; [apply Hf1|apply Hf2]; rewrite !in_app_iff; auto.
      * split; intros e He; [apply Hf1|apply Hf2]; rewrite !in_app_iff; auto.
    + done.
    + apply andb_true_iff in Ht as [Ht1 Ht2]. apply Htry; [apply Hf1; by left|]. intros v.
      destruct (is_true v); (apply Hv; [done| |sub HL]).
      * split; intros e He; [apply Hf1; right|apply Hf2]; rewrite !in_app_iff; auto.
      * split; intros e He; [apply Hf1; right|apply Hf2]; rewrite !in_app_iff; auto.
    + apply Htry; [apply Hf1; by left|]. intros v. hk.
    + destruct e as [e|]; [|by apply t_set_flow]. apply Htry; [apply Hf1; by left|]. intros v. repeat hb. by apply t_set_flow.
    + apply andb_true_iff in Ht as [Ht1 Ht2]. apply Hs.
      * apply Hf1. by left.
      * apply Forall_forall. intros [ce b] Hc%elem_of_list_In. cbn. split; [|split; [|split]].
        -- apply Hf1. right. apply in_app_iff. left. eapply in_concat_map; [exact Hc|]. by left.
        -- rewrite forallb_forall in Ht1. apply (Ht1 _ Hc).
        -- apply fine_list. split; intros e' He'.
           ++ apply Hf1. right. apply in_app_iff. left. eapply in_concat_map; [exact Hc|]. by right.
           ++ apply Hf2. apply in_app_iff. left. eapply in_concat_map; [exact Hc|]. done.
        -- eapply (sub_concat_map (fun c => match c with (_, b) => concat (map esc b) end) cs L (ce, b)); [done|]. sub HL.
      * done.
      * apply fine_list. split; intros e' He'; [apply Hf1; right|apply Hf2]; apply in_app_iff; by right.
      * sub HL.
    + destruct e as [e|]; [|done].
      assert (typed P ty e) as Hty by (apply Hf2; by left).
      assert (only_foreign P foreign e) as Hof by (apply Hf1; by left).
      intros s Hs0. pose proof (g_eval L e n anon Hof s Hs0) as He. specialize (Hty n anon s). unfold try_control.
      destruct (eval P n e anon s) as [[v|f| | |] s']; try done.
      cbn. intros _. exists v. split; [done|]. right. exists (ty e). split; [apply HL, elem_of_list_here|]. by eapply Hty.
    + apply andb_true_iff in Ht as [[Ht1 Ht2%bool_decide_eq_true]%andb_true_iff Ht3]. subst fin.
      set (L1 := L ++ concat (map esc b)).
      eapply (t_bind _ _ _ (fun _ => G L1)).
      { eapply (t_conseq _ (G L1)); [apply (Hb b L1); [done| |]|..].
        - apply fine_list. split; intros e' He'; [apply Hf1|apply Hf2]; apply in_app_iff; by left.
        - subst L1. intros ? ?. apply elem_of_app. auto.
        - intros f e. apply G_mono. subst L1. intros ? ?. apply elem_of_app. auto.
        - done.
        - done. }
      intros []. eapply (t_bind _ _ _ (fun _ => G L)).
      2: { intros []. destruct n as [|n]; [rewrite finish_0; apply t_nofuel|]. rewrite finish_S. hb.
        eapply t_bind; [hk|intros []]. hb. apply (t_pure _ _ _ _ (a = a0)); [intros f e [[_ ->] ->]; done|]. intros <-.
        destruct a; try (apply t_ret; tauto). by apply t_set_flow. }
      destruct n as [|n']; [rewrite handle_0; apply t_nofuel|]. rewrite handle_S. hb.
      destruct a; try (apply t_ret; intros f e [_ ->]; done).
      destruct cs as [|c0 cs0].
      { eapply (t_bind _ _ _ (fun _ f _ => f = FNormal)); [by apply t_set_flow|intros []]. hb. apply t_ret. by intros f e [-> _]. }
      set (cs := c0 :: cs0) in *. hb. hb.
      destruct (find_catch P a0 cs) as [[d h]|] eqn:E.
      * apply find_catch_In in E. rewrite forallb_forall in Ht3. specialize (Ht3 _ E). cbn in Ht3.
        apply andb_true_iff in Ht3 as [Ht3 Ht4%bool_decide_eq_true].
        eapply (t_bind _ _ _ (fun _ => top)); [by apply t_keeps; [apply keeps_push|]|intros []].
        eapply (t_bind _ _ _ (fun _ => top)); [|intros []].
        { destruct d as [[t x]|], a0; try hk. repeat hb. hk. }
        eapply (t_bind _ _ _ (fun _ => G L)); [by apply t_set_flow|intros []].
        eapply (t_bind _ _ _ (fun _ => G L)); [|intros []; hk].
        assert (concat (map esc h) = []) as Hesc.
        { change (esc (SBlock h) = []). by apply no_throws_esc. }
        pose proof (Hbb n' eq_refl h L Ht3) as Hh. rewrite Hesc in Hh. apply Hh; [|apply list_subseteq_nil]. apply fine_list. split; intros e' He'; [apply Hf1|apply Hf2].
        -- apply in_app_iff. right. apply in_app_iff. left. eapply in_concat_map; [exact E|exact He'].
        -- apply in_app_iff. right. apply in_app_iff. left. eapply in_concat_map; [exact E|exact He'].
      * apply t_ret. intros f e [[HG ->] ->]. intros _. destruct (HG eq_refl) as (o & -> & [Hfo|(t & Ht & Hi)]); exists o; split; [done|by left|done|].
        subst L1. apply elem_of_app in Ht as [Ht|Ht]; [right; eauto|]. right. exists t. split; [|done]. apply HL.
        apply elem_of_list_In, filter_In. split; [by apply elem_of_list_In|].
        subst cs. cbv iota. apply forallb_forall. intros c Hc. apply find_catch_None in E. rewrite Forall_forall in E.
        apply elem_of_list_In in Hc. specialize (E c Hc). destruct (fst c) as [[t' x]|]; [|done].
        specialize (E o eq_refl). apply negb_true_iff. apply str_eqb_neq. intros ->. congruence.
    + hb. destruct e as [e|]; [|hk]. apply Htry; [apply Hf1; by left|]. intros v. repeat hb. hk.
    + apply Hw; [apply Hf1; by left|done| |done]. split; intros e He; [apply Hf1; by right|by apply Hf2].
  - intros l L Ht Hf HL. rewrite process_S. destruct l as [|s l]; [hk|]. cbn in Ht, HL. apply andb_true_iff in Ht as [Ht1 Ht2].
    apply Forall_cons in Hf as [Hf1 Hf2]. hb. destruct a; try (apply t_ret; tauto).
    eapply t_bind; [apply (t_pre _ (G L)); [tauto|]; apply Hv; [done|done|sub HL]|intros []]. apply Hp; [done|done|sub HL].
  - intros l L Ht Hf HL. rewrite block_S. hb. eapply t_bind; [by apply Hp|intros []]. hk.
  - intros c s dst L Hc Ht Hf HL. rewrite while_loop_S. apply Htry; [done|]. intros v. destruct (negb _); [hk|].
    eapply t_bind; [by apply Hv|intros []]. hb. destruct a; try (by apply t_set_flow); try (apply t_ret; tauto).
    all: eapply (t_bind _ _ _ (fun _ => G L)); [by apply t_set_flow|intros []; by apply Hw].
  - intros c it s dst L Hc Ht1 Hf1 HL1 Ht2 Hf2 HL2. rewrite for_loop_S. cbv zeta.
    assert (forall v, triple (G L) (do_ visit P n s; do f <- get_flow;
      match f with
      | FNormal | FContinue => do_ set_flow FNormal; do_ visit P n it; for_loop P n c it s v
      | FBreak => set_flow FNormal | _ => ret tt end) (fun _ => G L) RX) as Hround.
    { intros v. eapply t_bind; [by apply Hv|intros []]. hb. destruct a; try (by apply t_set_flow); try (apply t_ret; tauto).
      all: eapply (t_bind _ _ _ (fun _ => G L)); [by apply t_set_flow|intros []].
      all: eapply t_bind; [by apply Hv|intros []]; by apply Hfor. }
    destruct c as [c|]; [|apply Hround]. apply Htry; [by apply Hc|]. intros v. destruct (negb _); [hk|apply Hround].
  - intros e cs d dst L He Hcases Ht Hf HL. rewrite switch_loop_S. cbv zeta.
    assert (forall v (b : bool), triple (G L) (do_ (if b then ret tt else block P n d); do f <- get_flow;
        match f with
        | FNormal | FBreak => set_flow FNormal
        | FContinue => do_ set_flow FNormal; switch_loop P n e cs d v
        | _ => ret tt end) (fun _ => G L) RX) as Htail.
    { intros v b. eapply (t_bind _ _ _ (fun _ => G L)); [destruct b; [hk|by apply Hb]|intros []]. hb.
      destruct a; try (by apply t_set_flow); try (apply t_ret; tauto).
      eapply (t_bind _ _ _ (fun _ => G L)); [by apply t_set_flow|intros []; by apply Hs]. }
    destruct cs as [|c cs0]; [apply (Htail dst false)|]. apply Htry; [done|]. intros v.
    eapply t_bind; [by apply Hcs|]. intros [b|]; [apply (Htail v b)|hk].
  - intros v cs L H. rewrite switch_cases_S. destruct cs as [|[ce b] cs]; [hk|].
    apply Forall_cons in H as [(H1 & H2 & H3 & H4) H5]. cbn in *.
    eapply t_try; [by apply g_eval| |done]. intros cv. hb. destruct a; [|by apply Hcs].
    eapply t_bind; [by apply Hb|intros []]. hk.
Qed.

(** What the generator records contains everything that can escape. *)
Lemma set_add_elem t u l : t ∈ set_add u l <-> t = u \/ t ∈ l.
Proof. unfold set_add. case_bool_decide; set_solver. Qed.
Lemma set_union_elem t a b : t ∈ set_union a b <-> t ∈ a \/ t ∈ b.
Proof. induction a as [|x a IH]; cbn; [set_solver|]. rewrite set_add_elem, IH. set_solver. Qed.
Lemma gen_scope_inv b f g g' : gen_scope b f g = Ok g' -> f (with_flow FNormal g) = Ok g'.
Proof.
  unfold gen_scope. intros H. apply rbind_Ok in H as (g1 & E & H).
  destruct b; [destruct (g_flow g1)|]; congruence.
Qed.
Definition recorded (s : stmt) : Prop := forall allow g g', tame s = true -> gen_stmt ty rt allow s g = Ok g' ->
  g_thrown g ⊆ g_thrown g' /\ esc s ⊆ g_thrown g'.
Lemma recorded_list l allow g g' : Forall recorded l -> forallb tame l = true -> fold_res (gen_stmt ty rt allow) l g = Ok g' ->
  g_thrown g ⊆ g_thrown g' /\ concat (map esc l) ⊆ g_thrown g'.
Proof.
  intros Hl. revert g. induction Hl as [|s l Hs Hl IH]; intros g Ht Hg.
  - injection Hg as <-. split; [done|]. cbn. set_solver.
  - cbn in Ht, Hg |- *. apply andb_true_iff in Ht as [Ht1 Ht2]. apply rbind_Ok in Hg as (g1 & E & Hg).
    apply Hs in E as [E1 E2]; [|done]. apply IH in Hg as [Hg1 Hg2]; [|done]. set_solver.
Qed.
Lemma recorded_all s : recorded s.
Proof.
  induction s using stmt_ind'; intros allow g g' Ht Hg; cbn [tame gen_stmt esc] in *;
    try (injection Hg as <-; split; [done|set_solver]).
  - apply gen_scope_inv in Hg. by eapply recorded_list in Hg.
  - destruct allow; [injection Hg as <-|done]. split; [done|set_solver].
  - destruct allow; [injection Hg as <-|done]. split; [done|set_solver].
  - apply andb_true_iff in Ht as [[Ht1 Ht2]%andb_true_iff Ht3].
    apply rbind_Ok in Hg as (g1 & E1 & Hg). apply rbind_Ok in Hg as (g2 & E2 & Hg).
    apply IHs1 in E1 as [E1 E1']; [|done].
    assert (g_thrown g1 ⊆ g_thrown g2 /\ esc s2 ⊆ g_thrown g2) as [E2a E2b].
    { destruct s2; try (by eapply IHs2); by eapply (IHs2 true). }
    assert (g_thrown g2 ⊆ g_thrown g' /\ esc s3 ⊆ g_thrown g') as [E3a E3b].
    { destruct s3; try (by eapply IHs3); by eapply (IHs3 true). }
    set_solver.
  - done.
  - apply andb_true_iff in Ht as [Ht1 Ht2]. apply rbind_Ok in Hg as (g1 & E1 & Hg).
    apply IHs1 in E1 as [E1 E1']; [|done]. apply IHs2 in Hg as [Hg Hg']; [|done]. set_solver.
  - destruct (str_eqb rt _); [injection Hg as <-|done]. split; [done|set_solver].
  - apply andb_true_iff in Ht as [Ht1 Ht2]. apply rbind_Ok in Hg as (g1 & E1 & Hg).
    assert (g_thrown g ⊆ g_thrown g1 /\ concat (map (fun c => match c with (_, b) => concat (map esc b) end) cs) ⊆ g_thrown g1) as [E1a E1b].
    { clear Hg. revert g E1. induction H as [|[ce b] cs Hc Hcs IH]; intros g E1.
      - injection E1 as <-. split; [done|]. cbn. set_solver.
      - cbn in Ht1, E1 |- *. apply andb_true_iff in Ht1 as [Ht1a Ht1b]. apply rbind_Ok in E1 as (g2 & E & E1).
        apply gen_scope_inv in E. apply recorded_list in E as [Ea Eb]; [|done..]. apply IH in E1 as [E1a E1b]; [|done]. cbn in Ea. set_solver. }
    destruct d as [|s d].
    + injection Hg as <-. cbn. set_solver.
    + apply gen_scope_inv in Hg. apply recorded_list in Hg as [Hga Hgb]; [|done..]. cbn [with_flow g_thrown] in Hga. set_solver.
  - destruct e as [e|]; [|done]. injection Hg as <-. cbn. split.
    + intros t Ht'. apply set_add_elem. by right.
    + intros t Ht'. apply set_add_elem. left. set_solver.
  - cbv zeta in Hg. apply andb_true_iff in Ht as [[Ht1 Ht2%bool_decide_eq_true]%andb_true_iff Ht3]. subst fin.
    apply rbind_Ok in Hg as (g1 & E1 & Hg). apply rbind_Ok in Hg as (g2 & E2 & Hg). cbn [rbind] in Hg. injection Hg as <-.
    apply gen_scope_inv in E1. apply recorded_list in E1 as [_ E1]; [|done..]. cbn [with_thrown g_thrown].
    split; [intros t Ht'; apply set_union_elem; by left|].
    destruct cs as [|c0 cs0].
    { intros t Ht'%elem_of_list_In. apply filter_In in Ht' as [_ Hf]. done. }
    set (cs := c0 :: cs0) in *.
    intros t Ht'%elem_of_list_In. apply filter_In in Ht' as [Hin Hf]. apply set_union_elem. right.
    apply elem_of_list_In, E1 in Hin. clear E1 H. subst cs. cbv iota in Hf. revert Hf Ht3 E2 H0. generalize (c0 :: cs0). clear c0 cs0. intros cs.
    revert g1 Hin. induction cs as [|[d h] cs IH]; intros g1 Hin Hf Ht3 E2 H0.
    { by injection E2 as <-. }
    cbn in Hf, Ht3, E2. apply andb_true_iff in Hf as [Hf1 Hf2]. apply andb_true_iff in Ht3 as [[Hth _]%andb_true_iff Ht3].
    apply rbind_Ok in E2 as (g3 & E & E2). apply Forall_cons in H0 as [Hh H0]. apply gen_scope_inv in E.
    apply recorded_list in E as [E _]; [|done..]. destruct d as [[t' x]|]; [|done].
    eapply IH; [|done..]. apply E. cbn. unfold set_del. apply elem_of_list_filter. split; [|done].
    intros ->. rewrite str_eqb_refl in Hf1. done.
  - destruct s; try (by eapply IHs); by eapply (IHs true).
Qed.
End Thrown.

(** ** What is recorded outside of try statements stays recorded *)
Section Bare.
Context (ty : expr -> str) (rt : str).
Definition bare (s : stmt) : Prop := forall allow g g', gen_stmt ty rt allow s g = Ok g' ->
  (g_thrown g <> [] -> g_thrown g' <> []) /\ (bare_throw s = true -> g_thrown g' <> []).
Lemma bare_list l allow g g' : Forall bare l -> fold_res (gen_stmt ty rt allow) l g = Ok g' ->
  (g_thrown g <> [] -> g_thrown g' <> []) /\ (existsb bare_throw l = true -> g_thrown g' <> []).
Proof.
  intros Hl. revert g. induction Hl as [|s l Hs Hl IH]; intros g Hg.
  - by injection Hg as <-.
  - cbn in Hg |- *. apply rbind_Ok in Hg as (g1 & E & Hg). apply Hs in E as [E1 E2]. apply IH in Hg as [Hg1 Hg2].
    split; [by auto|]. rewrite orb_true_iff. intros [H|H]; auto.
Qed.
Lemma bare_scope b f g g' (X : bool) : gen_scope b f g = Ok g' ->
  (f (with_flow FNormal g) = Ok g' -> (g_thrown (with_flow FNormal g) <> [] -> g_thrown g' <> []) /\ (X = true -> g_thrown g' <> [])) ->
  (g_thrown g <> [] -> g_thrown g' <> []) /\ (X = true -> g_thrown g' <> []).
Proof. intros H%gen_scope_inv K. auto. Qed.
Lemma set_union_nonempty a b : a <> [] -> set_union a b <> [].
Proof.
  intros Ha Hu. destruct a as [|x a]; [done|]. assert (x ∈ set_union (x :: a) b) as Hx by (apply set_union_elem; left; left).
  rewrite Hu in Hx. by apply elem_of_nil in Hx.
Qed.
Lemma bare_all s : bare s.
Proof.
  induction s using stmt_ind'; intros allow g g' Hg; cbn [gen_stmt bare_throw] in *; try (injection Hg as <-; done).
  - eapply bare_scope; [exact Hg|]. by apply bare_list.
  - destruct allow; [by injection Hg as <-|done].
  - destruct allow; [by injection Hg as <-|done].
  - apply rbind_Ok in Hg as (g1 & E1 & Hg). apply rbind_Ok in Hg as (g2 & E2 & Hg). apply IHs1 in E1 as [E1a E1b].
    assert ((g_thrown g1 <> [] -> g_thrown g2 <> []) /\ (bare_throw s2 = true -> g_thrown g2 <> [])) as [E2a E2b].
    { destruct s2; try (by eapply IHs2); by eapply (IHs2 true). }
    assert ((g_thrown g2 <> [] -> g_thrown g' <> []) /\ (bare_throw s3 = true -> g_thrown g' <> [])) as [E3a E3b].
    { destruct s3; try (by eapply IHs3); by eapply (IHs3 true). }
    split; [by auto|]. rewrite !orb_true_iff. intros [[H|H]|H]; auto.
  - destruct s; try (by eapply IHs); by eapply (IHs true).
  - apply rbind_Ok in Hg as (g1 & E1 & Hg). apply IHs1 in E1 as [E1a E1b]. apply IHs2 in Hg as [Hga Hgb].
    split; [by auto|]. rewrite orb_true_iff. intros [H|H]; auto.
  - destruct (str_eqb rt _); [by injection Hg as <-|done].
  - apply rbind_Ok in Hg as (g1 & E1 & Hg).
    assert ((g_thrown g <> [] -> g_thrown g1 <> []) /\ (existsb (fun c => match c with (_, b) => existsb bare_throw b end) cs = true -> g_thrown g1 <> [])) as [E1a E1b].
    { clear Hg. revert g E1. induction H as [|[ce b] cs Hc Hcs IH]; intros g E1; [by injection E1 as <-|].
      cbn in E1 |- *. apply rbind_Ok in E1 as (g2 & E & E1). apply gen_scope_inv in E. apply bare_list in E as [Ea Eb]; [|done].
      apply IH in E1 as [E1a E1b]. split; [by auto|]. rewrite orb_true_iff. intros [H|H]; auto. }
    destruct d as [|s d].
    + injection Hg as <-. split; [done|]. rewrite orb_true_iff. intros [H'|H']; [auto|done].
    + apply gen_scope_inv in Hg. apply bare_list in Hg as [Hga Hgb]; [|done].
      split; [by auto|]. rewrite orb_true_iff. intros [H'|H']; auto.
  - destruct e as [e|]; [|by injection Hg as <-]. injection Hg as <-. cbn. unfold set_add.
    assert ((if bool_decide (ty e ∈ g_thrown g) then g_thrown g else ty e :: g_thrown g) <> []); [|done].
    case_bool_decide as Hin; [|done]. intros Hnil. rewrite Hnil in Hin. by apply elem_of_nil in Hin.
  - cbv zeta in Hg. apply rbind_Ok in Hg as (g1 & E1 & Hg). apply rbind_Ok in Hg as (g2 & E2 & Hg). apply rbind_Ok in Hg as (g3 & E3 & Hg).
    injection Hg as <-. cbn. split; [|done]. apply set_union_nonempty.
  - destruct s; try (by eapply IHs); by eapply (IHs true).
Qed.
End Bare.

(** ** Every statement inside is checked *)
Section Nested.
Context (ty : expr -> str) (rt : str).
Definition checked_in (l : list stmt) : Prop := forall t, In t l -> exists a g g', gen_stmt ty rt a t g = Ok g'.
Lemma checked_app l k : checked_in l -> checked_in k -> checked_in (l ++ k).
Proof. intros H1 H2 t [H|H]%in_app_iff; auto. Qed.
Definition nchk (s : stmt) : Prop := forall a g g', gen_stmt ty rt a s g = Ok g' -> checked_in (nested s).
Lemma nchk_list l a g g' : Forall nchk l -> fold_res (gen_stmt ty rt a) l g = Ok g' -> checked_in (concat (map nested l)).
Proof.
  intros Hl. revert g. induction Hl as [|s l Hs Hl IH]; intros g Hg; [by intros t []|]. cbn in Hg |- *. apply rbind_Ok in Hg as (g1 & E & Hg).
  apply checked_app; eauto.
Qed.
Lemma nchk_cons s l : (exists a g g', gen_stmt ty rt a s g = Ok g') -> checked_in l -> checked_in (s :: l).
Proof. intros H1 H2 t [<-|H]; auto. Qed.
Lemma nchk_all s : nchk s.
Proof.
  induction s using stmt_ind'; intros a g g' Hg; cbn [nested]; (apply nchk_cons; [by eauto|]); cbn [gen_stmt] in *; try (intros ? Hin; by destruct Hin).
  - apply gen_scope_inv in Hg. by eapply nchk_list.
  - apply rbind_Ok in Hg as (g1 & E1 & Hg). apply rbind_Ok in Hg as (g2 & E2 & Hg). apply IHs1 in E1.
    apply checked_app; [done|]. apply checked_app.
    + destruct s2; try (by eapply IHs2); by eapply (IHs2 true).
    + destruct s3; try (by eapply IHs3); by eapply (IHs3 true).
  - destruct s; try (by eapply IHs); by eapply (IHs true).
  - apply rbind_Ok in Hg as (g1 & E1 & Hg). apply IHs1 in E1. apply IHs2 in Hg. by apply checked_app.
  - apply rbind_Ok in Hg as (g1 & E1 & Hg). apply checked_app.
    + clear Hg. revert g E1. induction H as [|[ce b] cs Hc Hcs IH]; intros g E1; [intros ? Hin; by destruct Hin|].
      cbn in E1 |- *. apply rbind_Ok in E1 as (g2 & E & E1). apply gen_scope_inv in E. apply checked_app; [by eapply nchk_list|by eapply IH].
    + destruct d as [|s d]; [intros ? Hin; by destruct Hin|]. apply gen_scope_inv in Hg. by eapply nchk_list.
  - cbv zeta in Hg. apply rbind_Ok in Hg as (g1 & E1 & Hg). apply rbind_Ok in Hg as (g2 & E2 & Hg). apply rbind_Ok in Hg as (g3 & E3 & Hg).
    apply checked_app; [|apply checked_app].
    + apply gen_scope_inv in E1. by eapply nchk_list.
    + clear E1 E3 Hg. revert g1 E2. induction H0 as [|[ce b'] cs Hc Hcs IH]; intros g1 E2; [intros ? Hin; by destruct Hin|].
      cbn in E2 |- *. apply rbind_Ok in E2 as (g4 & E & E2). apply gen_scope_inv in E. apply checked_app; [by eapply nchk_list|by eapply IH].
    + destruct fin as [l|]; [|intros ? Hin; by destruct Hin]. apply gen_scope_inv in E3. eapply nchk_list; [by apply H1|done].
  - destruct s; try (by eapply IHs); by eapply (IHs true).
Qed.

(** Where the generator's flow comes from. *)
Definition sets (s : stmt) : option flow :=
  match s with SBreak => Some FBreak | SContinue => Some FContinue | SReturn _ => Some FReturn | SThrow _ => Some FThrow | SExit _ => Some FExit | _ => None end.
Context (F : flow -> Prop) (HF : ~ F FNormal).
Definition unset_in (l : list stmt) : Prop := forall t f, In t l -> sets t = Some f -> ~ F f.
Definition funset (s : stmt) : Prop := forall a g g', gen_stmt ty rt a s g = Ok g' -> unset_in (nested s) -> F (g_flow g') -> F (g_flow g).
Lemma unset_app l k : unset_in (l ++ k) -> unset_in l /\ unset_in k.
Proof. intros H. split; intros t f Ht; apply (H t f), in_app_iff; auto. Qed.
Lemma unset_cons s l : unset_in (s :: l) -> (forall f, sets s = Some f -> ~ F f) /\ unset_in l.
Proof. intros H. split; [intros f; apply H; by left|intros t f Ht; apply H; by right]. Qed.
Lemma funset_list l a g g' : Forall funset l -> fold_res (gen_stmt ty rt a) l g = Ok g' -> unset_in (concat (map nested l)) -> F (g_flow g') -> F (g_flow g).
Proof.
  intros Hl. revert g. induction Hl as [|s l Hs Hl IH]; intros g Hg Hu HFg; [by injection Hg as <-|]. cbn in Hg, Hu. apply rbind_Ok in Hg as (g1 & E & Hg).
  apply unset_app in Hu as [Hu1 Hu2]. eapply Hs; [done..|]. by eapply IH.
Qed.
Lemma funset_scope b l a g g' : Forall funset l -> gen_scope b (fold_res (gen_stmt ty rt a) l) g = Ok g' -> unset_in (concat (map nested l)) -> ~ F (g_flow g').
Proof using HF. intros Hl Hg%gen_scope_inv Hu HFg. eapply funset_list in Hg; [|done..]. done. Qed.
Lemma funset_all s : funset s.
Proof using HF.
  induction s using stmt_ind'; intros a g g' Hg Hu HFg; cbn [nested] in Hu; apply unset_cons in Hu as [Hu0 Hu]; cbn [gen_stmt] in *; try (by injection Hg as <-).
  - by eapply funset_scope in Hg.
  - destruct a; [|done]. injection Hg as <-. by destruct (Hu0 FBreak).
  - destruct a; [|done]. injection Hg as <-. by destruct (Hu0 FContinue).
  - injection Hg as <-. by destruct (Hu0 FExit).
  - apply rbind_Ok in Hg as (g1 & E1 & Hg). apply rbind_Ok in Hg as (g2 & E2 & Hg). apply unset_app in Hu as [Hu1 Hu]. apply unset_app in Hu as [Hu2 Hu3].
    apply (IHs1 _ _ _ E1 Hu1).
    assert (F (g_flow g2)) as H2. { destruct s3; try (by eapply IHs3); by eapply (IHs3 true). }
    destruct s2; try (by eapply IHs2); by eapply (IHs2 true).
  - destruct s; try (by eapply IHs); by eapply (IHs true).
  - apply rbind_Ok in Hg as (g1 & E1 & Hg). apply unset_app in Hu as [Hu1 Hu2]. eapply IHs1; [done..|]. by eapply IHs2.
  - destruct (str_eqb rt _); [|done]. injection Hg as <-. by destruct (Hu0 FReturn).
  - apply rbind_Ok in Hg as (g1 & E1 & Hg). apply unset_app in Hu as [Hu1 Hu2].
    assert (F (g_flow g1)) as H1. { destruct d as [|s d]; [by injection Hg as <-|]. by eapply funset_scope in Hg. }
    clear Hg HFg. revert g E1. induction H as [|[ce b] cs Hc Hcs IH]; intros g E1; [by injection E1 as <-|].
    cbn in E1, Hu1. apply unset_app in Hu1 as [Hu1 Hu1']. apply rbind_Ok in E1 as (g2 & E & E1). eapply funset_scope in E; [|done..]. destruct E. by eapply IH.
  - destruct e; injection Hg as <-; by destruct (Hu0 FThrow).
  - cbv zeta in Hg. apply rbind_Ok in Hg as (g1 & E1 & Hg). apply rbind_Ok in Hg as (g2 & E2 & Hg). apply rbind_Ok in Hg as (g3 & E3 & Hg).
    injection Hg as <-. cbn in HFg. apply unset_app in Hu as [Hu1 Hu]. apply unset_app in Hu as [Hu2 Hu3].
    assert (F (g_flow g2)) as H2. { destruct fin as [l|]; [|by injection E3 as <-]. eapply funset_scope in E3; [done|by apply H1|done]. }
    exfalso. eapply funset_scope in E1; [|done..]. apply E1. clear E3 HFg E1. revert g1 E2. induction H0 as [|[ce b'] cs Hc Hcs IH]; intros g1 E2; [by injection E2 as <-|].
    cbn in E2, Hu2. apply unset_app in Hu2 as [Hu2 Hu2']. apply rbind_Ok in E2 as (g4 & E & E2). eapply funset_scope in E; [|done..]. destruct E. by eapply IH.
  - destruct s; try (by eapply IHs); by eapply (IHs true).
Qed.
End Nested.
