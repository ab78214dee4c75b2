(** Scopes and frames are balanced: exactly in programs without for and exit, and up to scopes left open in the running frame with for. *)
From Coq Require Import Floats.SpecFloat.
From Verif Require Import Base Base_Proofs Text_Model Tok_Model TypeTable TypeSys_Model Value_Model Interp_Model Interp_Spec Interp_Eqs Interp_Hoare Gen_Proofs.

(** [m] returns or raises with the counts it started with. *)
Definition still {A} (m : M A) : Prop :=
  forall s, match m s with (Val _, s') | (Raise _, s') => scope_counts s' = scope_counts s | _ => True end.
(** The same, and [m] never raises. *)
Definition same {A} (m : M A) : Prop :=
  forall s, match m s with (Val _, s') => scope_counts s' = scope_counts s | (Raise _, _) => False | _ => True end.
(** Only the innermost frame changes: it loses exactly [d] scopes, or with [loops] at most [d]. *)
Definition sinks (loops : bool) (d : nat) (p q : list nat) : Prop :=
  match p, q with
  | [], [] => True
  | a :: r, b :: r' => r' = r /\ (if loops then a <= b + d else a = b + d)
  | _, _ => False
  end.
Definition calm (loops : bool) {A} (d : nat) (m : M A) : Prop :=
  forall s, match m s with (Val _, s') => sinks loops d (scope_counts s) (scope_counts s') | (Raise _, _) => False | _ => True end.
Lemma sinks_refl l p : sinks l 0 p p.
Proof. destruct p; cbn; [done|]. split; [done|]. destruct l; lia. Qed.
Lemma sinks_step l d p q r : sinks l 0 p q -> sinks l d q r -> sinks l d p r.
Proof. destruct p, q, r; cbn; try done. intros [-> H1] [-> H2]. split; [done|]. destruct l; lia. Qed.
Lemma same_calm l {A} (m : M A) : same m -> calm l 0 m.
Proof. intros H s. specialize (H s). destruct (m s) as [[] s']; try done. rewrite H. apply sinks_refl. Qed.
Lemma same_still {A} (m : M A) : same m -> still m.
Proof. intros H s. specialize (H s). by destruct (m s) as [[] s']. Qed.
Lemma same_bind {A B} (m : M A) (k : A -> M B) : same m -> (forall a, same (k a)) -> same (bind m k).
Proof. intros H Hk s. specialize (H s). unfold bind. destruct (m s) as [[] s']; try done. rewrite <- H. apply Hk. Qed.
Lemma s_bind {A B} (m : M A) (k : A -> M B) : still m -> (forall a, still (k a)) -> still (bind m k).
Proof. intros H Hk s. specialize (H s). unfold bind. destruct (m s) as [[] s']; try done. rewrite <- H. apply Hk. Qed.
Lemma c_bind l {A B} d (m : M A) (k : A -> M B) : calm l 0 m -> (forall a, calm l d (k a)) -> calm l d (bind m k).
Proof.
  intros H Hk s. specialize (H s). unfold bind. destruct (m s) as [[] s']; try done. specialize (Hk a s').
  destruct (k a s') as [[] s'']; try done. by eapply sinks_step.
Qed.
Lemma c_more l {A} d (m : M A) : l = true \/ d = 0 -> calm l 0 m -> calm l d m.
Proof.
  intros Hl H s. specialize (H s). destruct (m s) as [[] s']; try done. destruct (scope_counts s), (scope_counts s'); cbn in *; try done.
  destruct H as [-> H]. split; [done|]. destruct l; [lia|]. destruct Hl; [done|]. lia.
Qed.
Lemma c_try l {A B} d (m : M A) (x : B) (k : A -> M B) : l = true \/ d = 0 -> still m -> (forall a, calm l d (k a)) -> calm l d (try_control m x k).
Proof.
  intros Hl H Hk s. specialize (H s). unfold try_control. destruct (m s) as [[] s'] eqn:E; try done.
  - specialize (Hk a s'). by rewrite <- H.
  - pose proof (c_more l d (fun s => (Val tt, s)) Hl (fun s => sinks_refl l _) s) as Hm. cbn in Hm. unfold scope_counts in *. cbn in *. by rewrite H.
Qed.
Lemma same_try {A B} (m : M A) (x : B) (k : A -> M B) : still m -> (forall a, same (k a)) -> same (try_control m x k).
Proof. intros H Hk s. specialize (H s). unfold try_control. destruct (m s) as [[] s']; try done. rewrite <- H. apply Hk. Qed.
Lemma same_lookup x : same (lookup_var x).
Proof. intros s. unfold lookup_var. by destruct (s_frames s). Qed.
Lemma same_lvalue x : same (lvalue x).
Proof. apply same_bind; [apply same_lookup|]. intros [v|]; by intros s. Qed.
Lemma same_store x o : same (store_var x o).
Proof.
  intros s. unfold store_var. destruct (s_frames s) as [|f l] eqn:E; [done|].
  destruct (env_set _ _ _) as [l'|] eqn:E2.
  - unfold scope_counts. rewrite E. cbn. f_equal. clear -E2. revert l' E2. generalize (fr_scopes f).
    intros l0. induction l0 as [|sc l0 IH]; intros l'; cbn; [done|]. destruct (sc_get sc x); [by intros [= <-]|].
    destruct (env_set l0 x o) as [l1|]; [|done]. intros [= <-]. cbn. by rewrite (IH l1).
  - destruct (sc_get _ _); [|done]. unfold scope_counts. cbn. by rewrite E.
Qed.
Lemma same_define x o : same (define x o).
Proof.
  intros s. unfold define. destruct (s_frames s) as [|[[|sc l] rv] r0] eqn:E; try done. destruct (sc_get sc x); [done|].
  unfold scope_counts. by rewrite E.
Qed.
Lemma same_get_ret : same get_ret.
Proof. intros s. unfold get_ret. by destruct (s_frames s). Qed.
Lemma same_set_ret o : same (set_ret o).
Proof. intros s. unfold set_ret. destruct (s_frames s) eqn:E; [done|]. unfold scope_counts. by rewrite E. Qed.
Lemma same_emit t : same (emit t). Proof. by intros s. Qed.
Lemma same_lift {A} (x : res A) : same (lift x). Proof. intros s. unfold lift. by destruct x. Qed.
Lemma same_ret {A} (a : A) : same (ret a). Proof. by intros s. Qed.
Lemma same_crash {A} e : same (@crash A e). Proof. by intros s. Qed.
Lemma same_nofuel {A} : same (@nofuel A). Proof. by intros s. Qed.
Lemma same_set_flow f : same (set_flow f). Proof. by intros s. Qed.
Lemma same_set_exn o : same (set_exn o). Proof. by intros s. Qed.
Lemma same_get_flow : same get_flow. Proof. by intros s. Qed.
Lemma same_get_exn : same get_exn. Proof. by intros s. Qed.

Lemma c_push l {A} d (k : unit -> M A) : calm l (S d) (k tt) -> calm l d (bind push_scope k).
Proof.
  intros H s. unfold bind, push_scope. destruct (s_frames s) as [|f r] eqn:E; [done|]. specialize (H (St (Frame ([] :: fr_scopes f) (fr_ret f) :: r) (s_world s) (s_flow s))).
  destruct (k tt _) as [[] s']; try done. revert H. unfold scope_counts. rewrite E. cbn [s_frames map fr_scopes length].
  destruct (map _ (s_frames s')); cbn [sinks]; [done|]. intros [-> H]. split; [done|]. destruct l; lia.
Qed.
Lemma c_pop_last l : calm l 1 pop_scope.
Proof.
  intros s. unfold pop_scope, scope_counts. destruct (s_frames s) as [|[[|sc x] rv] r]; cbn; try done. split; [done|]. destruct l; lia.
Qed.
Lemma c_pop l {A} d (k : unit -> M A) : calm l d (k tt) -> calm l (S d) (bind pop_scope k).
Proof.
  intros H s. unfold bind. pose proof (c_pop_last l s) as Hp. destruct (pop_scope s) as [[[]|f|e| |] s1]; try done. specialize (H s1).
  destruct (k tt s1) as [[] s2]; try done. revert Hp H. destruct (scope_counts s), (scope_counts s1), (scope_counts s2); cbn; try done.
  intros [-> H1] [-> H2]. split; [done|]. destruct l; lia.
Qed.
(** Running [m] in a scope of its own. *)
Lemma scoped_calm l (m : M unit) : calm l 0 m -> calm l 0 (do_ push_scope; do_ m; pop_scope).
Proof. intros H. apply c_push. apply c_bind; [done|intros ?]. apply c_pop_last. Qed.
(** A frame of its own takes the scopes left open in it away. *)
Lemma framed_same l sc {A B} (m : M A) (k : obj -> B) : calm l 0 m -> same (do_ push_frame sc; do_ m; do rv <- pop_frame; ret (k rv)).
Proof.
  intros H s. unfold bind, push_frame, pop_frame. specialize (H (St (Frame [sc] anon :: s_frames s) (s_world s) (s_flow s))).
  destruct (m _) as [[] s']; try done. revert H. unfold scope_counts. cbn [s_frames map]. destruct (s_frames s') as [|f r] eqn:E; [done|].
  cbn. by intros [H _].
Qed.
(** Where the control flow is normal. *)
Definition calm_normal (loops : bool) {A} (d : nat) (m : M A) : Prop :=
  forall s, s_flow s = FNormal -> match m s with (Val _, s') => sinks loops d (scope_counts s) (scope_counts s') | (Raise _, _) => False | _ => True end.
Lemma c_normal l {A} d (m : M A) : calm l d m -> calm_normal l d m.
Proof. intros H s _. apply H. Qed.
Lemma n_bind l {A B} d (m : M A) (k : A -> M B) : calm_normal l 0 m -> (forall a, calm l d (k a)) -> calm_normal l d (bind m k).
Proof.
  intros H Hk s Hs. specialize (H s Hs). unfold bind. destruct (m s) as [[] s']; try done. specialize (Hk a s').
  destruct (k a s') as [[] s'']; try done. by eapply sinks_step.
Qed.
Definition keeps {A} (m : M A) : Prop := forall s, match m s with (Val _, s') => s_flow s' = s_flow s | _ => True end.
Lemma keep_define x o : keeps (define x o).
Proof. intros s. unfold define. destruct (s_frames s) as [|[[|sc l] rv] r0]; try done. by destruct (sc_get sc x). Qed.
Lemma keep_store x o : keeps (store_var x o).
Proof. intros s. unfold store_var. destruct (s_frames s) as [|f l]; [done|]. destruct (env_set _ _ _); [done|]. by destruct (sc_get _ _). Qed.
Lemma n_keep l {A B} d (m : M A) (k : A -> M B) : same m -> keeps m -> (forall a, calm_normal l d (k a)) -> calm_normal l d (bind m k).
Proof.
  intros H H1 Hk s Hs. specialize (H s). specialize (H1 s). unfold bind. destruct (m s) as [[] s']; try done. rewrite <- H. apply Hk. by rewrite H1.
Qed.
Lemma n_set_normal l {A} d (k : unit -> M A) : calm_normal l d (k tt) -> calm l d (bind (set_flow FNormal) k).
Proof. intros H s. unfold bind, set_flow. by apply (H (St (s_frames s) (s_world s) FNormal)). Qed.
Lemma c_flow l {A} d (k : flow -> M A) : (forall f, match f with FNormal => calm_normal l d (k f) | _ => calm l d (k f) end) -> calm l d (bind get_flow k).
Proof. intros H s. unfold bind, get_flow. specialize (H (s_flow s)). destruct (s_flow s) eqn:E; try apply H. done. Qed.
Lemma n_push l {A} d (k : unit -> M A) : calm_normal l (S d) (k tt) -> calm_normal l d (bind push_scope k).
Proof.
  intros H s Hs. unfold bind, push_scope. destruct (s_frames s) as [|f r] eqn:E; [done|]. specialize (H (St (Frame ([] :: fr_scopes f) (fr_ret f) :: r) (s_world s) (s_flow s)) Hs).
  destruct (k tt _) as [[] s']; try done. revert H. unfold scope_counts. rewrite E. cbn [s_frames map fr_scopes length].
  destruct (map _ (s_frames s')); cbn [sinks]; [done|]. intros [-> H]. split; [done|]. destruct l; lia.
Qed.
Lemma n_pop l {A} d (k : unit -> M A) : calm_normal l d (k tt) -> calm_normal l (S d) (bind pop_scope k).
Proof.
  intros H s Hs. unfold bind. pose proof (c_pop_last l s) as Hp. destruct (pop_scope s) as [[[]|f|e| |] s1] eqn:E; try done.
  assert (s_flow s1 = FNormal) as H0. { revert E. unfold pop_scope. destruct (s_frames s) as [|[[|] ?] ?]; try done. by intros [= <-]. }
  specialize (H s1 H0).
  destruct (k tt s1) as [[] s2]; try done. revert Hp H. destruct (scope_counts s), (scope_counts s1), (scope_counts s2); cbn; try done.
  intros [-> H1] [-> H2]. split; [done|]. destruct l; lia.
Qed.
(** A call that returns leaves the control flow normal. *)
Lemma promote_normal r s v s' : promote r s = (Val v, s') -> s_flow s' = FNormal.
Proof. unfold promote, bind, get_flow, set_flow, raise, ret. destruct (s_flow s) eqn:E; try done; by intros [= <- <-]. Qed.
Lemma bind_returns {A B} (m : M A) (k : A -> M B) s v s' : bind m k s = (Val v, s') -> exists a s1, m s = (Val a, s1) /\ k a s1 = (Val v, s').
Proof. unfold bind. destruct (m s) as [[a|f|e| |] s1]; try done. by exists a, s1. Qed.
Ltac cs := first [apply same_lookup|apply same_lvalue|apply same_store|apply same_define|apply same_get_ret|apply same_set_ret|apply same_emit
  |apply same_lift|apply same_ret|apply same_crash|apply same_nofuel|apply same_set_flow|apply same_set_exn|apply same_get_flow|apply same_get_exn].

Section Balance.
Context (P : prog) (loops : bool) (quiet : str -> bool) (HP : tidy_prog loops quiet P) (HQ : never_throw P quiet).
Local Notation tm := (tidy loops quiet true).
Record balanced (n : nat) : Prop := {
  bl_eval : forall e dst, still (eval P n e dst);
  bl_args : forall es, still (eval_args P n es);
  bl_call : forall f vs dst, still (call P n f vs dst);
  bl_new : forall c vs, still (construct P n c vs);
  bl_exec : forall m vs dst, forallb tm (m_body m) = true -> same (execute P n m vs dst);
  bl_visit : forall s, tidy loops quiet false s = true -> calm loops 0 (visit P n s);
  bl_visit_listed : forall s, tm s = true -> calm_normal loops 0 (visit P n s);
  bl_process : forall l, forallb tm l = true -> calm loops 0 (process P n l);
  bl_block : forall l, forallb tm l = true -> calm loops 0 (block P n l);
  bl_handle : forall cs, forallb (fun c => match c with (_, h) => forallb tm h end) cs = true -> calm loops 0 (handle P n cs);
  bl_finish : forall fin, match fin with Some l => forallb tm l | None => true end = true -> calm loops 0 (finish P n fin);
  bl_while : forall c s dst, tidy loops quiet false s = true -> calm loops 0 (while_loop P n c s dst);
  bl_for : forall c it s dst, loops = true -> tidy loops quiet false it = true -> tidy loops quiet false s = true -> calm loops 1 (for_loop P n c it s dst);
  bl_foreach : forall t x hn nx s, quiet hn = true -> quiet nx = true -> tidy loops quiet false s = true -> calm_normal loops 0 (foreach_loop P n t x hn nx s);
  bl_switch : forall e cs d dst, forallb (fun c => match c with (_, b) => forallb tm b end) cs = true ->
    forallb tm d = true -> calm loops 0 (switch_loop P n e cs d dst);
  bl_cases : forall v cs, forallb (fun c => match c with (_, b) => forallb tm b end) cs = true -> calm loops 0 (switch_cases P n v cs)
}.
Lemma call_normal n f vs dst s v s' : call P n f vs dst s = (Val v, s') -> s_flow s' = FNormal.
Proof.
  destruct n as [|n]; [rewrite call_0; done|]. rewrite call_S. destruct (find_method _ _ _).
  - intros H. apply bind_returns in H as (? & ? & _ & H). by eapply promote_normal.
  - destruct (p_ext P f vs) as [[?| |?]|]; intros H; apply bind_returns in H as (? & ? & _ & H);
      [exact (promote_normal _ _ _ _ H)|exact (promote_normal _ _ _ _ H)| |done].
    apply bind_returns in H as (? & ? & _ & H). exact (promote_normal _ _ _ _ H).
Qed.
Lemma direct_normal n e dst s v s' : s_flow s = FNormal -> direct (Some e) = true -> eval P n e dst s = (Val v, s') -> s_flow s' = FNormal.
Proof.
  intros Hs Hd. destruct n as [|n]; [rewrite eval_0; done|]. rewrite eval_S. destruct e; try done.
  - by intros [= <- <-].
  - intros H. apply bind_returns in H as ([o|] & s1 & H1 & H2).
    + injection H2 as <- <-. revert H1. unfold lookup_var. destruct (s_frames s); [done|]. by intros [= _ <-].
    + by apply bind_returns in H2 as (? & ? & _ & H2).
  - intros H. apply bind_returns in H as (? & s1 & _ & H2). by eapply call_normal.
Qed.
Ltac sb := eapply s_bind; [first [match goal with H : forall _, _ |- _ => apply H end | apply same_still; cs]|intros ?].
Ltac ss := apply same_still; cs.
Ltac cc := apply same_calm; cs.
Ltac cb := eapply c_bind; [cc|intros ?].
Lemma balanced_ok n : balanced n.
Proof.
  induction n as [|n IH].
  { constructor; intros; rewrite ?eval_0, ?eval_args_0, ?call_0, ?construct_0, ?execute_0, ?visit_0, ?process_0, ?block_0, ?while_loop_0, ?for_loop_0, ?foreach_loop_0,
      ?switch_loop_0, ?switch_cases_0, ?handle_0, ?finish_0; by intros ?. }
  destruct IH as [He Ha Hc Hn Hx Hv Hvl Hp Hb Hh Hf Hw Hfo Hfe Hs Hcs].
  assert (forall (r : obj), still (promote r)) as Hpro.
  { intros r. unfold promote. sb. destruct a; try (by intros s); sb; ss. }
  assert (forall e dst d (k : obj -> M unit), loops = true \/ d = 0 -> (forall v, calm loops d (k v)) -> calm loops d (try_control (eval P n e dst) tt k)) as Htry'.
  { intros e dst d k Hl Hk. by apply c_try. }
  assert (forall e dst (k : obj -> M unit), (forall v, calm loops 0 (k v)) -> calm loops 0 (try_control (eval P n e dst) tt k)) as Htry.
  { intros e dst k Hk. apply Htry'; [by right|done]. }
  assert (forall f dst d (k : obj -> M unit), quiet f = true -> (forall v, calm_normal loops d (k v)) -> calm_normal loops d (bind (call P n f [] dst) k)) as Hq.
  { intros f dst d k Hf0 Hk s Hs0. pose proof (Hc f [] dst s) as H. pose proof (HQ f Hf0 n dst s) as H1. pose proof (call_normal n f [] dst s) as H2. unfold bind.
    destruct (call P n f [] dst s) as [[] s']; try done. { rewrite <- H. apply Hk. by eapply H2. } by eapply H1. }
  assert (forall s, (forall e t x gi hn nx b, s <> SForeach t x e gi hn nx b) -> tm s = true -> calm loops 0 (visit P (S n) s)) as Hvisit.
  { intros s Hne Hpl. rewrite visit_S. destruct s; cbn [tidy] in Hpl; try done;
      repeat match goal with H : _ && _ = true |- _ => apply andb_true_iff in H as [? ?] end.
    + cc.
    + apply Htry. intros v. cc.
    + apply Htry. intros v. destruct (is_true v); cc.
    + cb. apply Htry. intros v. do 2 cb. cc.
    + by apply Hb.
    + cc. + cc.
    + apply Htry. intros v. cc.
    + apply c_push. eapply c_bind; [by apply Hv|intros ?]. by apply Hfo.
    + exfalso. by eapply Hne.
    + apply Htry. intros v. destruct (is_true v); by apply Hv.
    + apply Htry. intros v. cc.
    + destruct e as [e|]; [|cc]. apply Htry. intros v. do 3 cb. cc.
    + by apply Hs.
    + destruct e as [e|]; [|cc]. apply Htry. intros v. cb. cc.
    + eapply c_bind; [by apply Hb|intros []]. eapply c_bind; [by apply Hh|intros []]. by apply Hf.
    + cb. destruct e as [e|]; [|cc]. apply Htry. intros v. cb. cc.
    + by apply Hw. }
  constructor.
  - intros e dst. rewrite eval_S. destruct e.
    + ss.
    + eapply s_bind; [ss|]. intros [v|]; [ss|]. sb. by intros s.
    + do 3 sb. ss.
    + sb. cbv zeta. destruct op; repeat (first [ss | sb | match goal with |- still (if ?c then _ else _) => destruct c end]).
    + sb. ss.
    + do 3 sb. ss.
    + eapply s_bind; [apply He|]. intros v. destruct (is_true v); apply He.
    + eapply s_bind; [apply He|]. intros v. destruct (is_true v); [ss|apply He].
    + do 2 sb. ss.
    + sb. apply same_still. apply same_try; [apply He|]. intros v. do 3 (apply same_bind; [cs|intros ?]). cs.
    + eapply s_bind; [apply Ha|]. intros vs. apply Hc.
    + eapply s_bind; [apply Ha|]. intros vs. apply Hn.
  - intros es. rewrite eval_args_S. destruct es; [ss|]. eapply s_bind; [apply He|intros v]. eapply s_bind; [apply Ha|intros vs]. ss.
  - intros f vs dst. rewrite call_S. destruct (find_method _ _ _) as [m|] eqn:E.
    { eapply s_bind; [apply same_still, Hx|intros r; apply Hpro]. apply find_method_In in E. eapply HP. by left. }
    destruct (p_ext P f vs) as [[v| |what]|].
    + eapply s_bind; [ss|intros ?]. apply Hpro.
    + eapply s_bind; [ss|intros ?]. apply Hpro.
    + do 2 (eapply s_bind; [ss|intros ?]). apply Hpro.
    + eapply s_bind; [ss|intros ?]. by intros s.
  - intros c vs. rewrite construct_S. destruct (find_method _ _ _) as [m|] eqn:E; [|ss].
    assert (same (execute P n m vs anon)) as Hm.
    { apply Hx. apply find_method_In in E. eapply HP. by right. }
    intros s. cbv zeta.
    specialize (Hm (St (s_frames s) (World (w_globals (s_world s)) (w_exn (s_world s)) (w_out (s_world s)) (w_next (s_world s) + 1)) FNormal)).
    destruct (execute _ _ _ _ _ _) as [[] s']; done.
  - intros m vs dst Hm. rewrite execute_S. apply same_bind; [cs|intros ?]. apply (framed_same loops). by apply Hp.
  - intros s Hpl. apply Hvisit; [intros ? ? ? ? ? ? ? ->; done|]. by destruct s.
  - intros s Hpl. assert (forall A : Prop, ((exists e t x gi hn nx b, s = SForeach t x e gi hn nx b) -> A) -> ((forall e t x gi hn nx b, s <> SForeach t x e gi hn nx b) -> A) -> A) as Hcase.
    { intros A H1 H2. destruct s; try (apply H2; intros; done). apply H1. by repeat eexists. }
    apply Hcase; [|intros Hne; by apply c_normal, Hvisit]. intros (e & t & x & gi & hn & nx & b & ->). cbn [tidy] in Hpl.
    repeat match goal with H : _ && _ = true |- _ => apply andb_true_iff in H as [? ?] end. rewrite visit_S. destruct e as [e|].
    + intros s0 Hs0. pose proof (He e anon s0) as Hst. pose proof (direct_normal n e anon s0) as Hd. unfold try_control. destruct (eval P n e anon s0) as [[] s1]; try done.
      * assert (s_flow s1 = FNormal) as Hs1 by (by eapply Hd). rewrite <- Hst. revert s1 Hst Hd Hs1. intros s1 _ _. revert s1.
        change (calm_normal loops 0 (do_ push_scope; do _ <- call P n gi [] anon; do_ pop_scope; foreach_loop P n t x hn nx b)).
        apply n_push. apply Hq; [done|intros ?]. apply n_pop. by apply Hfe.
      * unfold scope_counts in *. cbn. rewrite Hst. apply sinks_refl.
    + apply Hq; [done|intros ?]. by apply Hfe.
  - intros l Hl. rewrite process_S. destruct l as [|s l]; [cc|]. cbn in Hl. apply andb_true_iff in Hl as [H1 H2].
    apply c_flow. intros []; try cc. apply n_bind; [by apply Hvl|intros []]. by apply Hp.
  - intros l Hl. rewrite block_S. apply scoped_calm. by apply Hp.
  - intros cs Hl. rewrite handle_S. eapply c_bind; [cc|intros []]; try cc.
    eapply c_bind; [destruct cs; cc|intros []]. eapply c_bind; [cc|intros e].
    destruct (find_catch P e cs) as [[d h]|] eqn:E; [|cc]. apply find_catch_In in E. rewrite forallb_forall in Hl. specialize (Hl _ E). cbn in Hl.
    apply c_push. eapply c_bind; [destruct d as [[t x]|], e; try cc; do 2 cb; cc|intros []]. cb. eapply c_bind; [by apply Hb|intros []]. apply c_pop_last.
  - intros fin Hl. rewrite finish_S. cb. eapply c_bind.
    { destruct fin as [l|]; [|cc]. cb. by apply Hb. }
    intros []. eapply c_bind; [cc|intros []]; cc.
  - intros c s dst Hpl. rewrite while_loop_S. apply Htry. intros v. destruct (negb _); [cc|].
    eapply c_bind; [by apply Hv|intros []]. eapply c_bind; [cc|intros []]; try cc; (cb; by apply Hw).
  - intros c it s dst Hl Hit Hst. rewrite for_loop_S. cbv zeta.
    assert (forall v, calm loops 1 (do_ visit P n s; do f <- get_flow;
      match f with
      | FBreak => set_flow FNormal
      | FContinue | FNormal => do_ set_flow FNormal; do_ visit P n it; for_loop P n c it s v
      | _ => ret tt end)) as Hround.
    { intros v. eapply c_bind; [by apply Hv|intros []]. eapply c_bind; [cc|intros []]; try (apply c_more; [by left|cc]);
        (cb; eapply c_bind; [by apply Hv|intros []]; by apply Hfo). }
    destruct c as [c|]; [|apply Hround]. apply Htry'; [by left|]. intros v. destruct (negb _); [apply c_pop_last|apply Hround].
  - intros t x hn nx s Hh1 Hh2 Hst. rewrite foreach_loop_S. apply n_push. apply Hq; [done|intros v]. apply n_pop.
    destruct (negb _); [apply c_normal; cc|]. apply n_push. apply n_keep; [apply same_define|apply keep_define|intros []]. apply n_push. apply Hq; [done|intros o]. apply n_pop.
    apply n_keep; [apply same_store|apply keep_store|intros []]. apply n_bind; [apply c_normal; by apply Hv|intros []]. apply c_pop. eapply c_bind; [cc|intros []]; try cc; (apply n_set_normal; by apply Hfe).
  - intros e cs d dst H1 H2. rewrite switch_loop_S. cbv zeta.
    assert (forall v (b : bool), calm loops 0 (do_ (if b then ret tt else block P n d); do f <- get_flow;
        match f with
        | FNormal | FBreak => set_flow FNormal
        | FContinue => do_ set_flow FNormal; switch_loop P n e cs d v
        | _ => ret tt end)) as Htail.
    { intros v b. eapply c_bind; [destruct b; [cc|by apply Hb]|intros []]. eapply c_bind; [cc|intros []]; try cc. cb. by apply Hs. }
    destruct cs as [|c0 cs0]; [apply (Htail dst false)|]. apply Htry. intros v. eapply c_bind; [by apply Hcs|].
    intros [b|]; [apply (Htail v b)|cc].
  - intros v cs H. rewrite switch_cases_S. destruct cs as [|[ce b] cs]; [cc|]. cbn in H. apply andb_true_iff in H as [H1 H2].
    apply c_try; [by right|apply He|]. intros cv. eapply c_bind; [cc|intros []]; [|by apply Hcs].
    eapply c_bind; [by apply Hb|intros []]. cc.
Qed.
End Balance.
