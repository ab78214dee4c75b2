(** The other direction: for plain programs every result of the interpreter is derivable in
    the structured semantics. *)
From Coq Require Import Floats.SpecFloat.
From Verif Require Import Base Base_Proofs Text_Model Tok_Model TypeTable TypeSys_Model Value_Model Interp_Model Interp_Spec Interp_Eqs Interp_Proofs.

(** [bk m s Q R]: if [m] started in [s] returns a value, [Q] holds, if it raises a flow, [R] holds. *)
Definition bk {A} (m : M A) (s : st) (Q : A -> st -> Prop) (R : flow -> st -> Prop) : Prop :=
  match m s with
  | (Val a, s') => Q a s'
  | (Raise f, s') => R f s'
  | _ => True
  end.
Lemma bk_bind {A B} (m : M A) (k : A -> M B) s Q (R : flow -> st -> Prop) :
  bk m s (fun a s' => bk (k a) s' Q R) R -> bk (bind m k) s Q R.
Proof. unfold bk, bind. by destruct (m s) as [[] s']. Qed.
Lemma bk_try {A B} (m : M A) (d : B) (k : A -> M B) s Q R :
  bk m s (fun a s' => bk (k a) s' Q R) (fun f s' => Q d (St (s_frames s') (s_world s') f)) -> bk (try_control m d k) s Q R.
Proof. unfold bk, try_control. by destruct (m s) as [[] s']. Qed.
Lemma bk_val {A} (m : M A) s a s' (Q : A -> st -> Prop) R : m s = (Val a, s') -> Q a s' -> bk m s Q R.
Proof. unfold bk. by intros ->. Qed.
Lemma bk_raise {A} f s (Q : A -> st -> Prop) (R : flow -> st -> Prop) : R f s -> bk (raise f) s Q R.
Proof. done. Qed.
Lemma bk_ret {A} (a : A) s (Q : A -> st -> Prop) R : Q a s -> bk (ret a) s Q R.
Proof. done. Qed.
Lemma bk_crash {A} e s (Q : A -> st -> Prop) R : bk (crash e) s Q R.
Proof. done. Qed.
Lemma bk_nofuel {A} s (Q : A -> st -> Prop) R : bk nofuel s Q R.
Proof. done. Qed.
Lemma bk_lift {A} (r : res A) s (Q : A -> st -> Prop) R : (forall a, r = Ok a -> Q a s) -> bk (lift r) s Q R.
Proof. unfold bk, lift. destruct r; eauto. Qed.
Lemma bk_lvalue x g fs f (Q : obj -> st -> Prop) R :
  (forall o, ctx_get g x = Some o -> Q o (embed g fs f)) -> bk (lvalue x) (embed g fs f) Q R.
Proof. intros H. unfold lvalue, bk, bind. rewrite lookup_embed. destruct (ctx_get g x); [by apply H|done]. Qed.
Lemma bk_store x o g fs f (Q : unit -> st -> Prop) R :
  (forall g', ctx_set g x o = Some g' -> Q tt (embed g' fs f)) -> bk (store_var x o) (embed g fs f) Q R.
Proof.
  intros H. unfold bk, store_var, embed in *. cbn [s_frames fr_scopes fr_ret s_world s_flow]. unfold ctx_set in H.
  destruct (env_set (x_env g) x o) as [l|]; [exact (H _ eq_refl)|]. destruct (sc_get _ _); [|done]. exact (H _ eq_refl).
Qed.
Lemma bk_define x o g fs f (Q : unit -> st -> Prop) R :
  (forall g', ctx_declare g x o = Some g' -> Q tt (embed g' fs f)) -> bk (define x o) (embed g fs f) Q R.
Proof.
  intros H. unfold bk, define, embed in *. cbn [s_frames fr_scopes fr_ret s_world s_flow]. unfold ctx_declare in H.
  destruct (x_env g) as [|sc l]; [done|]. destruct (sc_get sc x); [done|]. exact (H _ eq_refl).
Qed.
Lemma bk_pop g fs f (Q : unit -> st -> Prop) R : Q tt (embed (ctx_pop g) fs f) -> bk pop_scope (embed g fs f) Q R.
Proof. unfold bk, pop_scope, embed, ctx_pop. cbn. by destruct (x_env g). Qed.

Ltac kstep := lazymatch goal with
  | |- bk (bind _ _) _ _ _ => apply bk_bind
  | |- bk (ret _) _ _ _ => apply bk_ret
  | |- bk (raise _) _ _ _ => apply bk_raise
  | |- bk (crash _) _ _ _ => apply bk_crash
  | |- bk (lift _) _ _ _ => apply bk_lift; intros ? ?
  | |- bk (lvalue _) _ _ _ => apply bk_lvalue; intros ? ?
  | |- bk (store_var _ _) _ _ _ => apply bk_store; intros ? ?
  | |- bk (define _ _) _ _ _ => apply bk_define; intros ? ?
  | |- bk pop_scope _ _ _ => apply bk_pop
  | |- bk push_scope _ _ _ => eapply bk_val; [apply push_embed|]
  | |- bk (lookup_var _) _ _ _ => eapply bk_val; [apply lookup_embed|]
  | |- bk (set_exn _) _ _ _ => eapply bk_val; [apply set_exn_embed|]
  | |- bk (set_flow _) _ _ _ => eapply bk_val; [apply set_flow_embed|]
  | |- bk (set_ret _) _ _ _ => eapply bk_val; [apply set_ret_embed|]
  | |- bk get_flow _ _ _ => eapply bk_val; [apply get_flow_embed|]
  | |- bk get_exn _ _ _ => eapply bk_val; [apply get_exn_embed|]
  | |- bk get_ret _ _ _ => eapply bk_val; [apply get_ret_embed|]
  | |- bk (emit _) _ _ _ => eapply bk_val; [apply emit_embed|]
  end; cbv beta iota.

Section Back.
Context (P : prog) (HP : plain_prog P).
Notation ev := (ev P Core). Notation evs := (evs P Core). Notation calls := (calls P Core).
Notation runs := (runs P Core). Notation runs_list := (runs_list P Core). Notation runs_block := (runs_block P Core).
Notation runs_handler := (runs_handler P Core). Notation runs_finally := (runs_finally P Core).
Notation runs_loop := (runs_loop P Core). Notation runs_select := (runs_select P Core). Notation runs_cases := (runs_cases P Core).

(** With [inside = false] a statement does not end by break or continue. *)
Definition ends (inside : bool) (k : ending) : Prop := inside = true \/ (k <> Brk /\ k <> Cont).

Record back (n : nat) : Prop := {
  b_eval : forall e dst g fs (Q : obj -> st -> Prop) (R : flow -> st -> Prop), plain_expr e = true ->
    (forall v g', ev g e dst (V v) g' -> Q v (embed g' fs FNormal)) ->
    (forall f g', ev g e dst T g' -> R FThrow (embed g' fs f)) -> bk (eval P n e dst) (embed g fs FNormal) Q R;
  b_args : forall es g fs (Q : list obj -> st -> Prop) (R : flow -> st -> Prop), forallb plain_expr es = true ->
    (forall vs g', evs g es (Some vs) g' -> Q vs (embed g' fs FNormal)) ->
    (forall f g', evs g es None g' -> R FThrow (embed g' fs f)) -> bk (eval_args P n es) (embed g fs FNormal) Q R;
  b_call : forall f vs dst g fs (Q : obj -> st -> Prop) (R : flow -> st -> Prop),
    (forall v g', calls g f vs dst (V v) g' -> Q v (embed g' fs FNormal)) ->
    (forall fl g', calls g f vs dst T g' -> R FThrow (embed g' fs fl)) -> bk (call P n f vs dst) (embed g fs FNormal) Q R;
  b_exec : forall m vs dst g fs (Q : obj -> st -> Prop) (R : flow -> st -> Prop), forallb (plain_stmt false) (m_body m) = true ->
    (forall sc k env' ret' w', bind_params (m_params m) vs = Ok sc -> ends false k ->
       runs_list (Ctx [sc] anon (x_world g)) (m_body m) k (Ctx env' ret' w') ->
       Q (if str_eqb (m_ret m) t_void then dst else ret') (embed (Ctx (x_env g) (x_ret g) w') fs (flow_of k))) ->
    bk (execute P n m vs dst) (embed g fs FNormal) Q R;
  b_visit : forall b s g fs (Q : unit -> st -> Prop) (R : flow -> st -> Prop), plain_stmt b s = true ->
    (forall k g', ends b k -> runs g s k g' -> Q tt (embed g' fs (flow_of k))) -> bk (visit P n s) (embed g fs FNormal) Q R;
  b_process : forall b l g fs (Q : unit -> st -> Prop) (R : flow -> st -> Prop), forallb (plain_stmt b) l = true ->
    (forall k g', ends b k -> runs_list g l k g' -> Q tt (embed g' fs (flow_of k))) -> bk (process P n l) (embed g fs FNormal) Q R;
  b_block : forall b l g fs (Q : unit -> st -> Prop) (R : flow -> st -> Prop), forallb (plain_stmt b) l = true ->
    (forall k g', ends b k -> runs_block g l k g' -> Q tt (embed g' fs (flow_of k))) -> bk (block P n l) (embed g fs FNormal) Q R;
  b_handle : forall b cs k0 g fs (Q : unit -> st -> Prop) (R : flow -> st -> Prop),
    forallb (fun c => match c with (_, h) => forallb (plain_stmt b) h end) cs = true -> ends b k0 ->
    (forall k g', ends b k -> runs_handler g k0 cs k g' -> Q tt (embed g' fs (flow_of k))) ->
    bk (handle P n cs) (embed g fs (flow_of k0)) Q R;
  b_finish : forall b fin k0 g fs (Q : unit -> st -> Prop) (R : flow -> st -> Prop),
    match fin with Some l => forallb (plain_stmt b) l | None => true end = true -> ends b k0 ->
    (forall k g', ends b k -> runs_finally g k0 fin k g' -> Q tt (embed g' fs (flow_of k))) ->
    bk (finish P n fin) (embed g fs (flow_of k0)) Q R;
  b_while : forall c s d g fs (Q : unit -> st -> Prop) (R : flow -> st -> Prop), plain_expr c = true -> plain_stmt true s = true ->
    (forall k g', ends false k -> runs_loop g c s d k g' -> Q tt (embed g' fs (flow_of k))) ->
    bk (while_loop P n c s d) (embed g fs FNormal) Q R;
  b_switch : forall e cs d o g fs (Q : unit -> st -> Prop) (R : flow -> st -> Prop), plain_expr e = true ->
    forallb (fun c => match c with (ce, b) => plain_expr ce && forallb (plain_stmt true) b end) cs = true ->
    forallb (plain_stmt true) d = true ->
    (forall k g', ends false k -> runs_select g e cs d o k g' -> Q tt (embed g' fs (flow_of k))) ->
    bk (switch_loop P n e cs d o) (embed g fs FNormal) Q R;
  b_cases : forall v cs g fs (Q : option bool -> st -> Prop) (R : flow -> st -> Prop),
    forallb (fun c => match c with (ce, b) => plain_expr ce && forallb (plain_stmt true) b end) cs = true ->
    (forall k g', (forall d, runs_cases g v cs d k g') -> Q (Some true) (embed g' fs (flow_of k))) ->
    (forall g', (forall d k g2, runs_block g' d k g2 -> runs_cases g v cs d k g2) -> Q (Some false) (embed g' fs FNormal)) ->
    (forall g', (forall d, runs_cases g v cs d Thr g') -> Q None (embed g' fs FThrow)) ->
    bk (switch_cases P n v cs) (embed g fs FNormal) Q R
}.

Lemma ends_done b : ends b Done. Proof. by right. Qed.
Lemma ends_thr b : ends b Thr. Proof. by right. Qed.
Lemma ends_ret b : ends b Ret. Proof. by right. Qed.
Hint Resolve ends_done ends_thr ends_ret : bdb.

Lemma back_ok n : back n.
Proof.
  induction n as [|n IH].
  { constructor; intros; rewrite ?eval_0, ?eval_args_0, ?call_0, ?execute_0, ?visit_0, ?process_0, ?block_0, ?while_loop_0, ?switch_loop_0, ?switch_cases_0,
      ?handle_0, ?finish_0; apply bk_nofuel. }
  destruct IH as [He Ha Hc Hx Hv Hp Hb Hh Hf Hw Hs Hcs].
  constructor.
  - intros e dst g fs Q R Hpl HQ HR. rewrite eval_S. destruct e; cbn [plain_expr] in Hpl; try done;
      repeat match goal with H : _ && _ = true |- _ => apply andb_true_iff in H as [? ?] end.
    + kstep. apply HQ. constructor.
    + do 2 kstep. destruct (ctx_get g x) eqn:E.
      * kstep. apply HQ. by constructor.
      * do 3 kstep. apply HR. by constructor.
    + kstep. apply He; [done| |intros; apply HR; by eapply ev_bin_left]. intros l g1 Hg1.
      kstep. apply He; [done| |intros; apply HR; by eapply ev_bin_right]. intros r g2 Hg2.
      do 3 kstep. apply HQ. by econstructor.
    + assert (plain_expr e1 = true /\ plain_expr e2 = true) as [Hpl1 Hpl2] by (destruct op; first [done|by apply andb_true_iff in Hpl]).
      kstep. apply He; [done| |intros; apply HR; by eapply ev_bool_left]. intros l g1 Hg1. cbv zeta.
      destruct op; try done;
      try (kstep; apply He; [done| |intros; apply HR; by eapply ev_compare_right]; intros r g2 Hg2; kstep; apply HQ; by eapply ev_compare).
      * destruct (is_true l) eqn:El; cbn [negb].
        -- kstep. apply He; [done| |intros; apply HR; by eapply ev_and_right]. intros r g2 Hg2. kstep. apply HQ. by eapply ev_and.
        -- kstep. apply HQ. by eapply ev_and_false.
      * destruct (is_true l) eqn:El.
        -- kstep. apply HQ. by eapply ev_or_true.
        -- kstep. apply He; [done| |intros; apply HR; by eapply ev_or_right]. intros r g2 Hg2. kstep. apply HQ. by eapply ev_or.
    + kstep. apply He; [done| |intros; apply HR; by eapply ev_un_throw]. intros v g1 Hg1. kstep. apply HQ. by econstructor.
    + do 7 kstep. apply HQ. by econstructor.
    + kstep. apply He; [done| |intros; apply HR; by eapply ev_tern_throw]. intros v g1 Hg1.
      destruct (is_true v) eqn:Ev; (apply He; [done|intros; apply HQ|intros; apply HR]); (eapply ev_tern; [done|by rewrite Ev]).
    + kstep. apply He; [done| |intros; apply HR; by eapply ev_elvis_throw]. intros v g1 Hg1.
      destruct (is_true v) eqn:Ev.
      * kstep. apply HQ. by eapply ev_elvis_true.
      * apply He; [done|intros; apply HQ|intros; apply HR]; by eapply ev_elvis_false.
    + kstep. apply He; [done| |intros; apply HR; by eapply ev_cast_throw]. intros v g1 Hg1. do 3 kstep. apply HQ. by econstructor.
    + kstep. apply Ha; [done| |intros; apply HR; by eapply ev_call_args]. intros vs g1 Hg1.
      apply Hc; [intros; apply HQ|intros; apply HR]; by econstructor.
  - intros es g fs Q R Hpl HQ HR. rewrite eval_args_S. destruct es as [|e es].
    + kstep. apply HQ. constructor.
    + cbn in Hpl. apply andb_true_iff in Hpl as [H1 H2].
      kstep. apply He; [done| |intros; apply HR; by eapply evs_first]. intros v g1 Hv1.
      kstep. apply Ha; [done| |intros; apply HR; by eapply evs_rest]. intros vs g2 Hv2. kstep. apply HQ. by econstructor.
  - intros f vs dst g fs Q R HQ HR. rewrite call_S. destruct (find_method _ _ _) as [m|] eqn:E.
    + assert (forallb (plain_stmt false) (m_body m) = true) as Hm.
      { assert (exists g, In (g, m) (p_methods P)) as [g0 Hin]; [|by eapply HP].
        revert E. generalize (p_methods P). induction l as [|[g0 m0] l IHl]; cbn; [done|].
        destruct (_ && _); [intros [= ->]; exists g0; by left|]. intros H. destruct (IHl H) as [g1 H1]. exists g1. by right. }
      kstep. apply Hx; [done|]. intros sc k env' ret' w' Hsc Hk Hrun. unfold promote. do 2 kstep.
      destruct k; cbn [flow_of].
      * do 3 kstep. apply HQ. eapply calls_method; [done..|by left].
      * by destruct Hk as [?|[? ?]].
      * by destruct Hk as [?|[? ?]].
      * do 3 kstep. apply HQ. eapply calls_method; [done..|by right].
      * kstep. apply HR. by eapply calls_method_throw.
    + destruct (p_ext P f vs) as [[v| |what]|] eqn:E2; unfold promote.
      * do 7 kstep. apply HQ. by constructor.
      * do 7 kstep. apply HQ. by constructor.
      * do 7 kstep. apply HR. by constructor.
      * do 3 kstep. apply HR. by constructor.
  - intros m vs dst g fs Q R Hpl HQ. rewrite execute_S. do 2 kstep. kstep. eapply bk_val; [apply push_frame_embed|]. cbv beta.
    kstep. eapply (Hp false); [done|]. intros k [env' ret' w'] Hk Hr. kstep. eapply bk_val; [apply pop_frame_embed|]. kstep. eauto.
  - intros b s g fs Q R Hpl HQ. rewrite visit_S.
    assert (forall e (k : obj -> M unit), plain_expr e = true ->
      (forall v g', ev g e anon (V v) g' -> bk (k v) (embed g' fs FNormal) Q R) ->
      (forall g', ev g e anon T g' -> runs g s Thr g') ->
      bk (try_control (eval P n e anon) tt k) (embed g fs FNormal) Q R) as Htry.
    { intros e k Hpe Hk Hthr. apply bk_try. apply He; [done|exact Hk|]. intros f g' Hg. rewrite embed_St.
      apply (HQ Thr); [apply ends_thr|auto]. }
    destruct s; cbn [plain_stmt] in Hpl; try done;
      repeat match goal with H : _ && _ = true |- _ => apply andb_true_iff in H as [? ?] end.
    + kstep. apply (HQ Done); [apply ends_done|constructor].
    + apply Htry; [done| |intros; by constructor]. intros v g1 Hg1. kstep. apply (HQ Done); [apply ends_done|by econstructor].
    + apply Htry; [done| |intros; by constructor]. intros v g1 Hg1. destruct (is_true v) eqn:Ev; kstep.
      apply (HQ Done); [apply ends_done|by econstructor].
    + do 2 kstep. apply bk_try. apply He; [done| |].
      * intros v g1 Hg1. do 5 kstep. apply (HQ Done); [apply ends_done|by econstructor].
      * intros f g1 Hg1. rewrite embed_St. apply (HQ Thr); [apply ends_thr|by econstructor].
    + apply (Hb b); [done|]. intros k g' Hk Hr. apply HQ; [done|by constructor].
    + kstep. apply (HQ Brk); [by left|constructor].
    + kstep. apply (HQ Cont); [by left|constructor].
    + apply Htry; [done| |intros; by constructor]. intros v g1 Hg1. kstep. apply (HQ Done); [apply ends_done|by econstructor].
    + apply Htry; [done| |intros; by constructor]. intros v g1 Hg1'.
      destruct (is_true v) eqn:Ev; (apply (Hv b); [done|]); intros k g2 Hk Hr; apply HQ; try done; (eapply runs_if; [done|by rewrite Ev]).
    + apply Htry; [done| |intros; by constructor]. intros v g1 Hg1. kstep. apply (HQ Done); [apply ends_done|by econstructor].
    + destruct e as [e|].
      * apply Htry; [done| |intros; by constructor]. intros v g1 Hg1. do 7 kstep. apply (HQ Ret); [apply ends_ret|by econstructor].
      * kstep. apply (HQ Ret); [apply ends_ret|constructor].
    + apply Hs; try done. intros k g' Hk Hr. apply HQ; [destruct Hk as [?|?]; [done|by right]|by constructor].
    + destruct e as [e|].
      * apply Htry; [done| |intros; by constructor]. intros v g1 Hg1. do 3 kstep. apply (HQ Thr); [apply ends_thr|by econstructor].
      * kstep. apply (HQ Thr); [apply ends_thr|constructor].
    + kstep. apply (Hb b); [done|]. intros k g1 Hk Hr1. kstep. apply (Hh b); [done..|]. intros k1 g2 Hk1 Hr2.
      apply (Hf b); [done..|]. intros k2 g3 Hk2 Hr3. apply HQ; [done|by econstructor].
    + do 2 kstep. destruct e as [e|].
      * apply bk_try. apply He; [done| |].
        -- intros v g2 Hg2. do 3 kstep. apply (HQ Done); [apply ends_done|by econstructor].
        -- intros f g2 Hg2. rewrite embed_St. apply (HQ Thr); [apply ends_thr|by econstructor].
      * kstep. apply (HQ Done); [apply ends_done|by econstructor].
    + apply Hw; try done. intros k g' Hk Hr. apply HQ; [destruct Hk as [?|?]; [done|by right]|by constructor].
  - intros b l g fs Q R Hpl HQ. rewrite process_S. destruct l as [|s l].
    { kstep. apply (HQ Done); [apply ends_done|constructor]. }
    cbn in Hpl. apply andb_true_iff in Hpl as [H1 H2]. do 2 kstep. kstep. apply (Hv b); [done|]. intros k g1 Hk Hr.
    assert (k = Done \/ k <> Done) as [->|Hne] by (destruct k; auto).
    + apply (Hp b); [done|]. intros k2 g2 Hk2 Hr2. apply HQ; [done|by econstructor].
    + assert (bk (process P n l) (embed g1 fs (flow_of k)) Q R); [|done].
      destruct n as [|n']; [rewrite process_0; apply bk_nofuel|]. rewrite process_S. destruct l as [|s' l'].
      * kstep. apply HQ; [done|by eapply list_stop].
      * assert (Q tt (embed g1 fs (flow_of k))) as HQ' by (apply HQ; [done|by eapply list_stop]).
        do 2 kstep. destruct k; cbn [flow_of]; try done; kstep; exact HQ'.
  - intros b l g fs Q R Hpl HQ. rewrite block_S. do 3 kstep. apply (Hp b); [done|]. intros k g1 Hk Hr. kstep. apply HQ; [done|by constructor].
  - intros b cs k0 g fs Q R Hpl Hk0 HQ. rewrite handle_S. do 2 kstep.
    assert (k0 = Thr \/ k0 <> Thr) as [->|Hne] by (destruct k0; auto).
    2: { assert (Q tt (embed g fs (flow_of k0))) as HQ' by (apply HQ; [done|by constructor]). destruct k0; try done; kstep; exact HQ'. }
    cbn [flow_of]. kstep. destruct cs as [|c0 cs0].
    { do 3 kstep. cbn [find_catch]. kstep. apply (HQ Done); [apply ends_done|constructor]. }
    set (cs := c0 :: cs0) in *. do 3 kstep. destruct (find_catch P _ cs) as [[d h]|] eqn:E.
    + assert (forallb (plain_stmt b) h = true) as Hh1.
      { apply find_catch_some in E as (pre & post & Ecs & _). rewrite Ecs, forallb_app in Hpl. cbn in Hpl.
        apply andb_true_iff in Hpl as [_ Hpl]. by apply andb_true_iff in Hpl as [? _]. }
      apply find_catch_some in E.
      do 3 kstep. destruct d as [[t x]|].
      * pose proof E as (pre & post & _ & (o & Ho & _) & _). rewrite Ho. kstep. kstep. kstep. kstep. kstep.
        kstep. kstep. kstep. apply (Hb b); [done|]. intros k g4 Hk Hr. kstep. apply HQ; [done|].
        eapply handler_typed; [done..| |exact Hr].
        match goal with H1 : ctx_declare (ctx_push g) x (default_obj t) = Some ?ga, H2 : ctx_set ?ga x ?v = Some ?gb |- _ =>
          revert H1 H2; unfold ctx_declare, ctx_push, ctx_set; cbn [x_env x_ret x_world sc_get]; intros [= <-]; cbn [x_env x_ret x_world env_set sc_get];
          rewrite str_eqb_refl; cbn [sc_set]; rewrite str_eqb_refl; by intros [= <-] end.
      * kstep. do 3 kstep. apply (Hb b); [done|]. intros k g4 Hk Hr. kstep. apply HQ; [done|]. by eapply handler_untyped.
    + kstep. apply (HQ Thr); [apply ends_thr|]. apply handler_miss; [done|]. by apply find_catch_none.
  - intros b fin k0 g fs Q R Hpl Hk0 HQ. rewrite finish_S. do 3 kstep. destruct fin as [l|].
    + do 2 kstep. apply (Hb b); [done|]. intros k g1 Hk Hr. do 2 kstep.
      assert (k = Done \/ k <> Done) as [->|Hne] by (destruct k; auto); cbn [flow_of].
      * kstep. apply HQ; [done|by constructor].
      * assert (Q tt (embed g1 fs (flow_of k))) as HQ' by (apply HQ; [done|by constructor]). destruct k; try done; kstep; exact HQ'.
    + kstep. do 2 kstep. assert (Q tt (embed g fs (flow_of k0))) as HQ' by (apply HQ; [done|by constructor]). destruct k0; cbn [flow_of] in *; kstep; exact HQ'.
  - intros c s d g fs Q R Hc0 Hs0 HQ. rewrite while_loop_S. apply bk_try. apply He; [done| |].
    2: { intros f g1 Hg1. rewrite embed_St. apply (HQ Thr); [apply ends_thr|by constructor]. }
    intros v g1 Hg1. destruct (is_true v) eqn:Ev; cbn [negb].
    2: { kstep. apply (HQ Done); [apply ends_done|by eapply loop_end]. }
    kstep. apply (Hv true); [done|]. intros k g2 Hk Hr. do 2 kstep. destruct k; cbn [flow_of].
    + do 2 kstep. apply Hw; [done..|]. intros k3 g3 Hk3 Hr3. apply HQ; [done|]. eapply loop_again; [done..|by left|done].
    + kstep. apply (HQ Done); [apply ends_done|by eapply loop_break].
    + do 2 kstep. apply Hw; [done..|]. intros k3 g3 Hk3 Hr3. apply HQ; [done|]. eapply loop_again; [done..|by right|done].
    + kstep. apply (HQ Ret); [apply ends_ret|]. eapply loop_leave; [done..|by left].
    + kstep. apply (HQ Thr); [apply ends_thr|]. eapply loop_leave; [done..|by right].
  - intros e cs d o g fs Q R He0 Hcs0 Hd0 HQ. rewrite switch_loop_S. cbv zeta.
    assert (forall v g1 k g2, runs_scrutinee P Core g e cs o v g1 -> runs_cases g1 v cs d k g2 ->
      bk (do f <- get_flow; match f with FNormal | FBreak => set_flow FNormal
            | FContinue => do_ set_flow FNormal; switch_loop P n e cs d v | _ => ret tt end) (embed g2 fs (flow_of k)) Q R) as Htail.
    { intros v g1 k g2 Hr1 Hr2. do 2 kstep. destruct k; cbn [flow_of].
      - kstep. apply (HQ Done); [apply ends_done|]. eapply select_stop; [done..|]. left. auto.
      - kstep. apply (HQ Done); [apply ends_done|]. eapply select_stop; [done..|]. left. auto.
      - do 2 kstep. apply Hs; [done..|]. intros k3 g3 Hk3 Hr3. apply HQ; [done|]. by eapply select_again.
      - kstep. apply (HQ Ret); [apply ends_ret|]. eapply select_stop; [done..|]. right. auto.
      - kstep. apply (HQ Thr); [apply ends_thr|]. eapply select_stop; [done..|]. right. auto. }
    destruct cs as [|c0 cs0].
    + kstep. apply (Hb true); [done|]. intros k g2 Hk Hr. eapply (Htail o); [constructor|by constructor].
    + apply bk_try. apply He; [done| |].
      2: { intros f g1 Hg1. rewrite embed_St. apply (HQ Thr); [apply ends_thr|by constructor]. }
      intros v g1 Hg1. kstep. apply Hcs; [done| | |].
      * intros k g2 Hr. kstep. kstep. eapply Htail; [by econstructor|apply Hr].
      * intros g2 Hr. kstep. apply (Hb true); [done|]. intros k g3 Hk Hr3. eapply Htail; [by econstructor|by apply Hr].
      * intros g2 Hr. kstep. apply (HQ Thr); [apply ends_thr|]. eapply select_stop; [by econstructor|apply Hr|]. right. auto.
  - intros v cs g fs Q R Hpl HQ1 HQ2 HQ3. rewrite switch_cases_S. destruct cs as [|[ce b] cs].
    { kstep. apply HQ2. intros d k g2 Hr. by constructor. }
    cbn in Hpl. apply andb_true_iff in Hpl as [[H1 H2]%andb_true_iff H3].
    apply bk_try. apply He; [done| |].
    2: { intros f g1 Hr. rewrite embed_St. apply HQ3. intros d. by constructor. }
    intros cv g1 Hr. do 2 kstep. destruct a.
    + kstep. apply (Hb true); [done|]. intros k g2 Hk Hr2. kstep. apply HQ1. intros d. by eapply cases_equal.
    + apply Hcs; [done| | |].
      * intros k g2 Hr2. apply HQ1. intros d. eapply cases_next; [done..|apply Hr2].
      * intros g2 Hr2. apply HQ2. intros d k g3 Hr3. eapply cases_next; [done..|by apply Hr2].
      * intros g2 Hr2. apply HQ3. intros d. eapply cases_next; [done..|apply Hr2].
Qed.
End Back.
