(** The interpreter computes every result the structured semantics derives (with [full = Core] and with [full = Leaky]). *)
From Coq Require Import Floats.SpecFloat.
From Verif Require Import Base Base_Proofs Text_Model Tok_Model TypeTable TypeSys_Model Value_Model Interp_Model Interp_Spec Interp_Eqs.

Definition depth (g : ctx) : nat := length (x_env g).

(** ** Monad steps *)
Lemma bind_val {A B} (m : M A) (k : A -> M B) s a s' : m s = (Val a, s') -> bind m k s = k a s'.
Proof. intros H. unfold bind. by rewrite H. Qed.
Lemma bind_raise {A B} (m : M A) (k : A -> M B) s f s' : m s = (Raise f, s') -> bind m k s = (Raise f, s').
Proof. intros H. unfold bind. by rewrite H. Qed.
Lemma try_val {A B} (m : M A) (d : B) (k : A -> M B) s a s' : m s = (Val a, s') -> try_control m d k s = k a s'.
Proof. intros H. unfold try_control. by rewrite H. Qed.
Lemma try_raise {A B} (m : M A) (d : B) (k : A -> M B) s f s' :
  m s = (Raise f, s') -> try_control m d k s = (Val d, St (s_frames s') (s_world s') f).
Proof. intros H. unfold try_control. by rewrite H. Qed.

(** ** Primitive operations on an embedded context *)
Lemma lookup_embed x g fs f : lookup_var x (embed g fs f) = (Val (ctx_get g x), embed g fs f).
Proof. done. Qed.
Lemma lvalue_embed x o g fs f : ctx_get g x = Some o -> lvalue x (embed g fs f) = (Val o, embed g fs f).
Proof. intros H. unfold lvalue. erewrite bind_val by apply lookup_embed. cbv beta. by rewrite H. Qed.
Lemma store_embed x o g g' fs f : ctx_set g x o = Some g' -> store_var x o (embed g fs f) = (Val tt, embed g' fs f).
Proof.
  unfold ctx_set, store_var, embed. cbn [s_frames fr_scopes fr_ret s_world s_flow].
  destruct (env_set (x_env g) x o) as [l|]; [by intros [= <-]|].
  destruct (sc_get _ _); [by intros [= <-]|done].
Qed.
Lemma define_embed x o g g' fs f : ctx_declare g x o = Some g' -> define x o (embed g fs f) = (Val tt, embed g' fs f).
Proof.
  unfold ctx_declare, define, embed. cbn [s_frames fr_scopes fr_ret s_world s_flow].
  destruct (x_env g) as [|sc l]; [done|]. destruct (sc_get sc x); [done|]. by intros [= <-].
Qed.
Lemma push_embed g fs f : push_scope (embed g fs f) = (Val tt, embed (ctx_push g) fs f).
Proof. done. Qed.
Lemma pop_embed g fs f : 0 < depth g -> pop_scope (embed g fs f) = (Val tt, embed (ctx_pop g) fs f).
Proof. unfold depth, pop_scope, embed, ctx_pop. cbn. destruct (x_env g); [simpl; lia|done]. Qed.
Lemma set_exn_embed o g fs f : set_exn o (embed g fs f) = (Val tt, embed (throwing g o) fs f).
Proof. done. Qed.
Lemma emit_embed t g fs f : emit t (embed g fs f) = (Val tt, embed (printing g t) fs f).
Proof. done. Qed.
Lemma set_flow_embed f' g fs f : set_flow f' (embed g fs f) = (Val tt, embed g fs f').
Proof. done. Qed.
Lemma get_flow_embed g fs f : get_flow (embed g fs f) = (Val f, embed g fs f).
Proof. done. Qed.
Lemma get_exn_embed g fs f : get_exn (embed g fs f) = (Val (w_exn (x_world g)), embed g fs f).
Proof. done. Qed.
Lemma get_ret_embed g fs f : get_ret (embed g fs f) = (Val (x_ret g), embed g fs f).
Proof. done. Qed.
Lemma set_ret_embed o g fs f : set_ret o (embed g fs f) = (Val tt, embed (returning g o) fs f).
Proof. done. Qed.
Lemma lift_ok {A} (r : res A) a s : r = Ok a -> lift r s = (Val a, s).
Proof. by intros ->. Qed.
Lemma ret_val {A} (a : A) s : ret a s = (Val a, s).
Proof. done. Qed.
Lemma embed_St g fs f f' : St (s_frames (embed g fs f)) (s_world (embed g fs f)) f' = embed g fs f'.
Proof. done. Qed.
Lemma push_frame_embed sc g fs f : push_frame sc (embed g fs f) = (Val tt, embed (Ctx [sc] anon (x_world g)) (Frame (x_env g) (x_ret g) :: fs) f).
Proof. done. Qed.
Lemma pop_frame_embed e r w g fs f :
  pop_frame (embed (Ctx e r w) (Frame (x_env g) (x_ret g) :: fs) f) = (Val r, embed (Ctx (x_env g) (x_ret g) w) fs f).
Proof. done. Qed.

Lemma env_set_length l x o l' : env_set l x o = Some l' -> length l' = length l.
Proof.
  revert l'; induction l as [|sc l IH]; intros l'; [done|]. simpl. destruct (sc_get sc x); [by intros [= <-]|].
  destruct (env_set l x o) as [r|]; [|done]. intros [= <-]. simpl. by rewrite (IH r).
Qed.
Lemma ctx_set_depth g x o g' : ctx_set g x o = Some g' -> depth g' = depth g.
Proof.
  unfold ctx_set, depth. destruct (env_set (x_env g) x o) as [l|] eqn:E; [intros [= <-]; by eapply env_set_length|].
  destruct (sc_get _ _); [by intros [= <-]|done].
Qed.
Lemma ctx_declare_depth g x o g' : ctx_declare g x o = Some g' -> depth g' = depth g.
Proof.
  unfold ctx_declare, depth. destruct (x_env g) as [|sc l]; [done|]. destruct (sc_get sc x); [done|]. by intros [= <-].
Qed.
Lemma depth_push g : depth (ctx_push g) = S (depth g).
Proof. done. Qed.
Lemma depth_pop g : depth (ctx_pop g) = pred (depth g).
Proof. unfold depth, ctx_pop. cbn. by destruct (x_env g). Qed.

(** ** Catch clauses *)
Section Fwd.
Context (P : prog).
Lemma find_catch_some e cs c : find_catch P e cs = Some c <-> first_accepting P e cs c.
Proof.
  unfold first_accepting. split.
  - induction cs as [|[d b] cs IH]; simpl; [done|].
    destruct d as [[t x]|].
    + destruct e as [o|].
      * destruct (p_inst P (o_type o) t) eqn:E.
        -- intros [= <-]. exists [], cs. simpl. split; [done|]. split; [by exists o|constructor].
        -- intros H. destruct (IH H) as (pre & post & -> & Ha & Hn). exists ((Some (t, x), b) :: pre), post.
           split; [done|]. split; [done|]. constructor; [|done]. intros (o' & [= <-] & E'). congruence.
      * intros H. destruct (IH H) as (pre & post & -> & Ha & Hn). exists ((Some (t, x), b) :: pre), post.
        split; [done|]. split; [done|]. constructor; [|done]. by intros (o' & ? & E').
    + intros [= <-]. exists [], cs. done.
  - intros (pre & post & -> & Ha & Hn). induction Hn as [|[d b] pre Hd Hn IH]; simpl.
    + destruct c as [[[t x]|] h]; [|done]. destruct Ha as (o & -> & ->). done.
    + destruct d as [[t x]|]; [|exfalso; by apply Hd].
      destruct e as [o|]; [|done]. destruct (p_inst P (o_type o) t) eqn:E; [|done].
      exfalso. apply Hd. by exists o.
Qed.
Lemma find_catch_none e cs : find_catch P e cs = None <-> Forall (fun c => ~ accepting P e c) cs.
Proof.
  induction cs as [|[d b] cs IH]; [by split|]. simpl. rewrite Forall_cons.
  destruct d as [[t x]|].
  - destruct e as [o|].
    + destruct (p_inst P (o_type o) t) eqn:E.
      * split; [done|]. intros [H _]. exfalso. apply H. by exists o.
      * rewrite IH. split; [|by intros [_ ?]]. intros H. split; [|done]. intros (o' & [= <-] & E'). congruence.
    + rewrite IH. split; [|by intros [_ ?]]. intros H. split; [|done]. by intros (o' & ? & E').
  - split; [done|]. intros [H _]. by exfalso; apply H.
Qed.

(** ** Simulation *)
Definition sim_res (m : nat -> M obj) (g : ctx) (r : result) (g' : ctx) : Prop :=
  exists N, forall n, N <= n -> forall fs,
    match r with
    | V v => m n (embed g fs FNormal) = (Val v, embed g' fs FNormal)
    | T => exists f, m n (embed g fs FNormal) = (Raise FThrow, embed g' fs f)
    end.
Definition sim_end (m : nat -> M unit) (g : ctx) (k0 k : ending) (g' : ctx) : Prop :=
  exists N, forall n, N <= n -> forall fs, m n (embed g fs (flow_of k0)) = (Val tt, embed g' fs (flow_of k)).

(** The scopes are nested; only a return from a for loop leaves some behind. *)
Definition deep (L : language) (k : ending) (g g' : ctx) : Prop :=
  depth g <= depth g' /\ (L = Leaky /\ k = Ret \/ depth g' = depth g).
Context (L : language).
Definition Pev g e d r g' := depth g' = depth g /\ sim_res (fun n => eval P n e d) g r g'.
Definition Pevs g es (r : option (list obj)) g' := depth g' = depth g /\
  exists N, forall n, N <= n -> forall fs,
    match r with
    | Some vs => eval_args P n es (embed g fs FNormal) = (Val vs, embed g' fs FNormal)
    | None => exists f, eval_args P n es (embed g fs FNormal) = (Raise FThrow, embed g' fs f)
    end.
Definition Pcalls g f vs d r g' := depth g' = depth g /\ sim_res (fun n => call P n f vs d) g r g'.
Definition Pruns g s k g' := deep L k g g' /\ sim_end (fun n => visit P n s) g Done k g'.
Definition Phandler g k cs k' g' := deep L k' g g' /\ sim_end (fun n => handle P n cs) g k k' g'.
Definition Pfinally g k fin k' g' := deep L k' g g' /\ sim_end (fun n => finish P n fin) g k k' g'.
Definition Plist g l k g' := deep L k g g' /\ sim_end (fun n => process P n l) g Done k g'.
Definition Pblock g l k g' := deep L k g g' /\ sim_end (fun n => block P n l) g Done k g'.
Definition Ploop g c b d k g' := deep L k g g' /\ sim_end (fun n => while_loop P n c b d) g Done k g'.
(** the loop pops the scope of its variable *)
Definition popped (k : ending) (g : ctx) : ctx := match L, k with Leaky, Ret => g | _, _ => ctx_pop g end.
Lemma popped_pop k g : (L = Leaky -> k <> Ret) -> popped k g = ctx_pop g.
Proof. unfold popped. destruct L, k; try done. intros H. by specialize (H eq_refl). Qed.
Definition Prounds g c it b d k g' := deep L k g g' /\
  (0 < depth g -> sim_end (fun n => for_loop P n c it b d) g Done k (popped k g')).
Definition Pcond g c d v g' := depth g' = depth g /\
  match c with
  | None => v = d /\ g' = g
  | Some c => is_true v = true /\ sim_res (fun n => eval P n c d) g (V v) g'
  end.
Definition Pitems g t x hn nx b k g' := deep L k g g' /\ sim_end (fun n => foreach_loop P n t x hn nx b) g Done k g'.
Definition Pselect g e cs d o k g' := deep L k g g' /\ sim_end (fun n => switch_loop P n e cs d o) g Done k g'.
Definition Pscrut g e (cs : list (expr * list stmt)) o v g' := depth g' = depth g /\
  match cs with
  | [] => v = o /\ g' = g
  | _ => sim_res (fun n => eval P n e o) g (V v) g'
  end.
Definition Pcases g v cs d k g' := deep L k g g' /\
  exists N, forall n n', N <= n -> N <= n' -> forall fs,
    exists m s', switch_cases P n v cs (embed g fs FNormal) = (Val m, s') /\
      match m with
      | None => k = Thr /\ s' = embed g' fs FThrow
      | Some true => s' = embed g' fs (flow_of k)
      | Some false => block P n' d s' = (Val tt, embed g' fs (flow_of k))
      end.
End Fwd.

Scheme ev_mut := Minimality for ev Sort Prop
  with evs_mut := Minimality for evs Sort Prop
  with calls_mut := Minimality for calls Sort Prop
  with runs_mut := Minimality for runs Sort Prop
  with handler_mut := Minimality for runs_handler Sort Prop
  with finally_mut := Minimality for runs_finally Sort Prop
  with list_mut := Minimality for runs_list Sort Prop
  with block_mut := Minimality for runs_block Sort Prop
  with loop_mut := Minimality for runs_loop Sort Prop
  with rounds_mut := Minimality for runs_rounds Sort Prop
  with cond_mut := Minimality for runs_cond Sort Prop
  with items_mut := Minimality for runs_items Sort Prop
  with select_mut := Minimality for runs_select Sort Prop
  with scrut_mut := Minimality for runs_scrutinee Sort Prop
  with cases_mut := Minimality for runs_cases Sort Prop.
Combined Scheme spec_mut from ev_mut, evs_mut, calls_mut, runs_mut, handler_mut, finally_mut, list_mut, block_mut,
  loop_mut, rounds_mut, cond_mut, items_mut, select_mut, scrut_mut, cases_mut.

Lemma handler_declare g x t v g1 fs f : ctx_declare (ctx_push g) x v = Some g1 ->
  exists g0, ctx_declare (ctx_push g) x (default_obj t) = Some g0 /\ store_var x v (embed g0 fs f) = (Val tt, embed g1 fs f).
Proof.
  unfold ctx_declare, ctx_push. cbn. intros [= <-]. eexists. split; [done|].
  unfold store_var, embed. cbn. rewrite !str_eqb_refl. cbn. rewrite ?str_eqb_refl. done.
Qed.

Ltac unp := unfold Pev, Pevs, Pcalls, Pruns, Phandler, Pfinally, Plist, Pblock, Ploop, Prounds, Pcond, Pitems, Pselect,
  Pscrut, Pcases, sim_end, sim_res in *.
Ltac dst := repeat match goal with
  | H : _ /\ _ |- _ => destruct H
  | H : exists _, _ |- _ => destruct H
  | H : _ \/ _ |- _ => destruct H
  end; subst.
Ltac depths := rewrite ?depth_pop, ?depth_push in *;
  repeat match goal with
  | H : ctx_set _ _ _ = Some _ |- _ => apply ctx_set_depth in H
  | H : ctx_declare _ _ _ = Some _ |- _ => apply ctx_declare_depth in H
  end; repeat progress rewrite ?depth_pop, ?depth_push in *.
Ltac dep0 := solve [done | depths; cbn in *; lia | depths; unfold depth in *; cbn in *; lia].
Ltac undeep := repeat match goal with H : deep _ _ _ _ |- _ => destruct H as [? [[? ?]|?]]; subst end.
Ltac dep := lazymatch goal with
  | |- deep _ _ _ _ => undeep; try discriminate; (split; [dep0|first [left; done | right; dep0]])
  | |- _ => undeep; try discriminate; dep0
  end.
(** one monadic step whose first action is known *)
Ltac known :=
  lazymatch goal with
  | |- ret _ _ = _ => apply ret_val
  | |- lookup_var _ _ = _ => apply lookup_embed
  | |- lvalue _ _ = _ => eapply lvalue_embed; eassumption
  | |- store_var _ _ _ = _ => first [eassumption | eapply store_embed; eassumption]
  | |- define _ _ _ = _ => eapply define_embed; eassumption
  | |- push_scope _ = _ => apply push_embed
  | |- pop_scope _ = _ => apply pop_embed; dep
  | |- set_exn _ _ = _ => apply set_exn_embed
  | |- emit _ _ = _ => apply emit_embed
  | |- set_flow _ _ = _ => apply set_flow_embed
  | |- get_flow _ = _ => apply get_flow_embed
  | |- get_exn _ = _ => apply get_exn_embed
  | |- get_ret _ = _ => apply get_ret_embed
  | |- set_ret _ _ = _ => apply set_ret_embed
  | |- lift _ _ = _ => apply lift_ok; eassumption
  | |- push_frame _ _ = _ => apply push_frame_embed
  | |- pop_frame _ = _ => apply pop_frame_embed
  | |- bind _ _ _ = _ => fail
  | |- try_control _ _ _ _ = _ => fail
  | |- _ => first [ eassumption | match goal with H : forall n, _ <= n -> _ |- _ => eapply H; lia end ]
  end.
Ltac stp := first
  [ erewrite bind_val by known | erewrite try_val by known
  | erewrite bind_raise by known | erewrite try_raise by known ]; cbv beta; cbn [flow_of].
(** raising hypotheses for the fuel at hand *)
Ltac raising n := repeat match goal with
  | H : forall m, ?N <= m -> forall fs, exists f, _ |- _ =>
      let f := fresh "f" in let E := fresh "E" in
      match goal with fs : list frame |- _ => destruct (H n ltac:(lia) fs) as [f E] end; clear H
  end.

Ltac sumN := 
  let rec go acc := match goal with
  | H : forall n, ?N <= n -> _ |- _ => is_var N; match acc with context[N] => fail 1 | _ => go (N + acc) end
  | H : forall n m, ?N <= n -> _ |- _ => is_var N; match acc with context[N] => fail 1 | _ => go (N + acc) end
  | _ => exists (S (S (S acc))) end in go 0.
Ltac eqS := rewrite ?eval_S, ?eval_args_S, ?call_S, ?construct_S, ?execute_S, ?visit_S, ?process_S, ?block_S, ?while_loop_S, ?for_loop_S, ?foreach_loop_S, ?switch_loop_S, ?switch_cases_S, ?handle_S, ?finish_S; cbv beta iota zeta.
Ltac fin := rewrite ?embed_St; first [ done | known | (eexists; first [done|known]) ].
Ltac rws := repeat match goal with 
  | H : is_true _ = _ |- _ => rewrite H
  | H : ctx_get _ _ = _ |- _ => rewrite H
  | H : find_method _ _ _ = _ |- _ => rewrite H
  | H : p_ext _ _ _ = _ |- _ => rewrite H
  end; cbn [negb andb orb]; cbv beta iota.
Ltac auto1 := 
  unp; dst; try discriminate; cbn [flow_of] in *;
  split; [dep | 
    sumN; intros [|n] Hn fs; [lia|]; raising n; eqS; cbn [flow_of];
    repeat (rws; stp); rws; fin ].
Lemma execute_sim P m vs d sc g k env' ret' w' N n fs :
  bind_params (m_params m) vs = Ok sc ->
  (forall n, N <= n -> forall fs, process P n (m_body m) (embed (Ctx [sc] anon (x_world g)) fs FNormal) = (Val tt, embed (Ctx env' ret' w') fs (flow_of k))) ->
  S N <= n ->
  execute P n m vs d (embed g fs FNormal) =
    (Val (if str_eqb (m_ret m) t_void then d else ret'), embed (Ctx (x_env g) (x_ret g) w') fs (flow_of k)).
Proof. intros Hb Hp Hn. destruct n as [|n]; [lia|]. rewrite execute_S. repeat stp. done. Qed.
Lemma fwd P L : L <> Promise ->
  (forall g e d r g', ev P L g e d r g' -> Pev P g e d r g') /\
  (forall g es r g', evs P L g es r g' -> Pevs P g es r g') /\
  (forall g f vs d r g', calls P L g f vs d r g' -> Pcalls P g f vs d r g') /\
  (forall g s k g', runs P L g s k g' -> Pruns P L g s k g') /\
  (forall g k cs k' g', runs_handler P L g k cs k' g' -> Phandler P L g k cs k' g') /\
  (forall g k fin k' g', runs_finally P L g k fin k' g' -> Pfinally P L g k fin k' g') /\
  (forall g l k g', runs_list P L g l k g' -> Plist P L g l k g') /\
  (forall g l k g', runs_block P L g l k g' -> Pblock P L g l k g') /\
  (forall g c b d k g', runs_loop P L g c b d k g' -> Ploop P L g c b d k g') /\
  (forall g c it b d k g', runs_rounds P L g c it b d k g' -> Prounds P L g c it b d k g') /\
  (forall g c d v g', runs_cond P L g c d v g' -> Pcond P g c d v g') /\
  (forall g t x hn nx b k g', runs_items P L g t x hn nx b k g' -> Pitems P L g t x hn nx b k g') /\
  (forall g e cs d o k g', runs_select P L g e cs d o k g' -> Pselect P L g e cs d o k g') /\
  (forall g e cs o v g', runs_scrutinee P L g e cs o v g' -> Pscrut P g e cs o v g') /\
  (forall g v cs d k g', runs_cases P L g v cs d k g' -> Pcases P L g v cs d k g').
Proof.
  intros HL. apply spec_mut; intros; try discriminate; try congruence; try solve [auto1].

  - (* EBool *) unp; dst. split; [dep|]. sumN; intros [|n] Hn fs; [lia|]; raising n; eqS. stp.
    destruct op; try done; stp; fin.
  - unp; dst. split; [dep|]. sumN; intros [|n] Hn fs; [lia|]; raising n; eqS. stp.
    destruct op; try done; stp; fin.
  - (* ETern *) unp; dst. split; [dep|]. destruct r; sumN; intros [|n] Hn fs; try lia; raising n; eqS; stp; destruct (is_true v); fin.
  - (* ENew *) unp; dst; try done. split; [dep|]. sumN; intros [|[|n]] Hn fs; try lia.
    rewrite eval_S. stp. rewrite construct_S. rws.
    match goal with |- context [execute P n m vs anon ?s] => 
      change s with (embed (Ctx (x_env g1) (x_ret g1) (World (w_globals (x_world g1)) (w_exn (x_world g1)) (w_out (x_world g1)) (w_next (x_world g1) + 1))) fs FNormal) end.
    erewrite execute_sim; [|eassumption|eassumption|lia]. done.
  - (* calls *) unp; dst; (split; [dep|]); sumN; intros [|[|n]] Hn fs; try lia; rewrite call_S; rws;
      (erewrite bind_val; [|eapply execute_sim; [eassumption|eassumption|lia]]); done.
  - unp; dst; (split; [dep|]); sumN; intros [|[|n]] Hn fs; try lia; rewrite call_S; rws;
      (erewrite bind_val; [|eapply execute_sim; [eassumption|eassumption|lia]]). by eexists.
  - (* SIf *) unp; dst. split; [dep|]. sumN; intros [|n] Hn fs; try lia; eqS; stp; destruct (is_true v); fin.
  - (* SFor *) unp; dst. rewrite (popped_pop L k g2 H3) in *. split.
    { undeep; try discriminate; try (by exfalso; apply H3). split; [dep0|right; dep0]. }
    match goal with H : 0 < depth _ -> _ |- _ => destruct H as [N HN]; [dep|] end.
    sumN; intros [|n] Hn fs; try lia; eqS; repeat stp. fin.
  - unp; dst. split; [dep|]. match goal with H : 0 < depth _ -> _ |- _ => destruct H as [N HN]; [dep|] end.
    sumN; intros [|n] Hn fs; try lia; eqS; repeat stp. fin.
  - (* handlers *) unp. split; [dep|]. sumN; intros [|n] Hn fs; try lia; eqS; stp; destruct k; done.
  - unp. split; [dep|]. sumN; intros [|n] Hn fs; try lia; eqS; repeat stp.
    destruct cs; [done|]. repeat stp. rewrite (proj2 (find_catch_none P _ _)) by done. fin.
  - unp; dst. split; [dep|]. sumN; intros [|n] Hn fs; try lia; eqS; repeat stp.
    destruct cs; [by destruct H as ([] & ? & ? & ?)|]. repeat stp. rewrite (proj2 (find_catch_some P _ _ _) H). repeat stp. fin.
  - unp; dst. split; [dep|]. sumN; intros [|n] Hn fs; try lia; eqS; repeat stp.
    destruct cs; [by destruct H as ([] & ? & ? & ?)|]. repeat stp. rewrite (proj2 (find_catch_some P _ _ _) H). stp.
    rewrite H0. destruct (handler_declare g x t v g1 fs FThrow H2) as (g0 & Hd & Hs).
    repeat stp. erewrite bind_val; cycle 1. { stp. stp. exact Hs. }
    repeat stp. fin.
  - (* finally *) unp. split; [dep|]. sumN; intros [|n] Hn fs; try lia; eqS; repeat stp. destruct k; fin.
  - unp; dst. split; [dep|]. sumN; intros [|n] Hn fs; try lia; eqS. stp. erewrite bind_val; cycle 1. { stp. known. } repeat stp. done.
  - unp; dst. split; [dep|]. sumN; intros [|n] Hn fs; try lia; eqS. stp. erewrite bind_val; cycle 1. { stp. known. } stp. destruct k'; done.
  - (* list *) unp; dst. split; [dep|]. sumN; intros [|n] Hn fs; try lia; eqS; repeat stp.
    destruct n as [|n]; [lia|]. rewrite process_S. destruct l; [done|]. stp. destruct k; done.
  - (* while leave *) unp; dst; (split; [dep|]); sumN; intros [|n] Hn fs; try lia; eqS; stp; rws; repeat stp; done.
  - unp; dst; (split; [dep|]); sumN; intros [|n] Hn fs; try lia; eqS; stp; rws; repeat stp; fin.
  - (* rounds *) unp; dst. split; [dep|]. intros Hd. rewrite (popped_pop L Done g1) by done.
    sumN; intros [|n] Hn fs; try lia; eqS; repeat (rws; stp); rws; fin.
  - unp; dst. split; [dep|]. intros Hd. unfold popped. destruct c as [c|]; dst;
      sumN; intros [|n] Hn fs; try lia; eqS; repeat (rws; stp); rws; fin.
  - (* rounds again *) unp; dst; (split; [dep|]); intros Hd; (match goal with H : 0 < depth _ -> _ |- _ => destruct H as [N HN]; [dep|] end); destruct c as [c|]; dst;
      sumN; intros [|n] Hn fs; try lia; eqS; repeat (rws; stp); fin.
  - unp; dst; split; done.
  - unp; dst. split; [dep|]. split; [done|]. eauto.
  - (* items *) unp; dst; (split; [dep|]); sumN; intros [|n] Hn fs; try lia; eqS; repeat (rws; stp); fin.
  - unp; dst; (split; [dep|]); sumN; intros [|n] Hn fs; try lia; eqS; repeat (rws; stp); fin.
  - (* select *) destruct H0 as [D0 H0], H2 as [D2 [N HN]]. split; [clear H0 HN; dst; dep|].
    destruct cs as [|c cs].
    + destruct H0 as [-> ->]. exists (S (S N)). intros [|n] Hn fs; [lia|]. rewrite switch_loop_S. cbv zeta iota beta.
      destruct (HN n n ltac:(lia) ltac:(lia) fs) as (m & s' & E & Hm). destruct n as [|n]; [lia|]. rewrite switch_cases_S in E.
      cbn in E. injection E as <- <-. cbn in Hm. erewrite bind_val by apply Hm. stp. dst; done.
    + destruct H0 as [N0 H0]. exists (S (N + N0)). intros [|n] Hn fs; [lia|]. rewrite switch_loop_S. cbv zeta iota beta.
      stp. destruct (HN n n ltac:(lia) ltac:(lia) fs) as (m & s' & E & Hm). erewrite bind_val by exact E. cbv beta.
      destruct m as [[]|].
      * subst s'. stp. stp. dst; done.
      * erewrite bind_val by exact Hm. stp. dst; done.
      * dst; done.
  - destruct H0 as [D0 H0], H2 as [D2 [N HN]], H4 as [D4 [N4 H4]]. split; [dep|].
    destruct cs as [|c cs].
    + destruct H0 as [-> ->]. exists (S (S (N + N4))). intros [|n] Hn fs; [lia|]. rewrite switch_loop_S. cbv zeta iota beta.
      destruct (HN n n ltac:(lia) ltac:(lia) fs) as (m & s' & E & Hm). destruct n as [|n]; [lia|]. rewrite switch_cases_S in E.
      cbn in E. injection E as <- <-. cbn in Hm. erewrite bind_val by apply Hm. stp. stp. fin.
    + destruct H0 as [N0 H0]. exists (S (N + N0 + N4)). intros [|n] Hn fs; [lia|]. rewrite switch_loop_S. cbv zeta iota beta.
      stp. destruct (HN n n ltac:(lia) ltac:(lia) fs) as (m & s' & E & Hm). erewrite bind_val by exact E. cbv beta.
      destruct m as [[]|].
      * subst s'. stp. stp. stp. fin.
      * erewrite bind_val by exact Hm. stp. stp. fin.
      * dst; done.
  - unp; dst; split; done.
  - unp; dst. split; [done|]. eauto.
  - (* cases *) unp; dst. split; [dep|]. exists (S x). intros [|n] n' Hn Hn' fs; [lia|]. rewrite switch_cases_S.
    eexists _, _. split; [apply ret_val|]. known.
  - unp; dst. split; [dep|]. exists (S x). intros [|n] n' Hn Hn' fs; [lia|]. rewrite switch_cases_S. raising n.
    eexists _, _. split; [stp; done|]. done.
  - unp; dst. split; [dep|]. exists (S (x + x0)). intros [|n] n' Hn Hn' fs; [lia|]. rewrite switch_cases_S.
    eexists _, _. split; [repeat stp; apply ret_val|]. done.
  - destruct H0 as [D0 [N0 H0]], H3 as [D3 [N3 H3]]. split; [dep|]. exists (S (N0 + N3)).
    intros [|n] n' Hn Hn' fs; [lia|]. rewrite switch_cases_S.
    destruct (H3 n n' ltac:(lia) ltac:(lia) fs) as (m & s' & E & Hm). exists m, s'. split; [|done].
    stp. stp. exact E.
Qed.
