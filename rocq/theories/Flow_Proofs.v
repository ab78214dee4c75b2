(** Each statement does what Flow_Spec says. *)
From Coq Require Import Floats.SpecFloat.
From Verif Require Import Base Base_Proofs Text_Model Tok_Model TypeTable TypeSys_Model Value_Model Interp_Model Interp_Spec Interp_Eqs Interp_Proofs Interp_Mono Flow_Spec.

Lemma bind_inv {A B} (m : M A) (k : A -> M B) s b s' : bind m k s = (Val b, s') -> exists a s1, m s = (Val a, s1) /\ k a s1 = (Val b, s').
Proof. unfold bind. destruct (m s) as [[] s1]; try done. eauto. Qed.
Lemma try_inv {A B} (m : M A) (d : B) (k : A -> M B) s b s' : try_control m d k s = (Val b, s') ->
  (exists a s1, m s = (Val a, s1) /\ k a s1 = (Val b, s')) \/ (exists f s1, m s = (Raise f, s1) /\ b = d /\ s' = with_flow s1 f).
Proof. unfold try_control. destruct (m s) as [[] s1]; try done; [eauto|]. intros [= <- <-]. right. eauto. Qed.

Lemma leM_up {A} (m : nat -> M A) : (forall n, leM (m n) (m (S n))) -> forall n n' s r s', n <= n' -> m n s = (r, s') -> r <> NoFuel -> m n' s = (r, s').
Proof.
  intros Hm n n' s r s' Hle. induction Hle as [|n' Hle IH]; [done|]. intros H Hr. specialize (IH H Hr).
  destruct (Hm n' s) as [E|E]; [|congruence]. rewrite IH in E. by subst.
Qed.
Section Up.
Context (P : prog).
Lemma eval_up n n' e d s r s' : n <= n' -> eval P n e d s = (r, s') -> r <> NoFuel -> eval P n' e d s = (r, s').
Proof. apply (leM_up (fun n => eval P n e d)). intros; apply mono_ok. Qed.
Lemma visit_up n n' t s r s' : n <= n' -> visit P n t s = (r, s') -> r <> NoFuel -> visit P n' t s = (r, s').
Proof. apply (leM_up (fun n => visit P n t)). intros; apply mono_ok. Qed.
Lemma process_up n n' t s r s' : n <= n' -> process P n t s = (r, s') -> r <> NoFuel -> process P n' t s = (r, s').
Proof. apply (leM_up (fun n => process P n t)). intros; apply mono_ok. Qed.
Lemma block_up n n' t s r s' : n <= n' -> block P n t s = (r, s') -> r <> NoFuel -> block P n' t s = (r, s').
Proof. apply (leM_up (fun n => block P n t)). intros; apply mono_ok. Qed.
Lemma handle_up n n' t s r s' : n <= n' -> handle P n t s = (r, s') -> r <> NoFuel -> handle P n' t s = (r, s').
Proof. apply (leM_up (fun n => handle P n t)). intros; apply mono_ok. Qed.
Lemma finish_up n n' t s r s' : n <= n' -> finish P n t s = (r, s') -> r <> NoFuel -> finish P n' t s = (r, s').
Proof. apply (leM_up (fun n => finish P n t)). intros; apply mono_ok. Qed.
Lemma while_up n n' c b d s r s' : n <= n' -> while_loop P n c b d s = (r, s') -> r <> NoFuel -> while_loop P n' c b d s = (r, s').
Proof. apply (leM_up (fun n => while_loop P n c b d)). intros; apply mono_ok. Qed.
Lemma switch_up n n' e c b d s r s' : n <= n' -> switch_loop P n e c b d s = (r, s') -> r <> NoFuel -> switch_loop P n' e c b d s = (r, s').
Proof. apply (leM_up (fun n => switch_loop P n e c b d)). intros; apply mono_ok. Qed.
Lemma cases_up n n' v cs s r s' : n <= n' -> switch_cases P n v cs s = (r, s') -> r <> NoFuel -> switch_cases P n' v cs s = (r, s').
Proof. apply (leM_up (fun n => switch_cases P n v cs)). intros; apply mono_ok. Qed.
End Up.
(** Brings all runs in the context to the fuel [n]. *)
Ltac up n := repeat match goal with
  | H : eval _ ?m _ _ _ = _ |- _ => lazymatch m with n => fail | _ => apply (eval_up _ m n) in H; [|lia|done] end
  | H : visit _ ?m _ _ = _ |- _ => lazymatch m with n => fail | _ => apply (visit_up _ m n) in H; [|lia|done] end
  | H : process _ ?m _ _ = _ |- _ => lazymatch m with n => fail | _ => apply (process_up _ m n) in H; [|lia|done] end
  | H : block _ ?m _ _ = _ |- _ => lazymatch m with n => fail | _ => apply (block_up _ m n) in H; [|lia|done] end
  | H : handle _ ?m _ _ = _ |- _ => lazymatch m with n => fail | _ => apply (handle_up _ m n) in H; [|lia|done] end
  | H : finish _ ?m _ _ = _ |- _ => lazymatch m with n => fail | _ => apply (finish_up _ m n) in H; [|lia|done] end
  | H : while_loop _ ?m _ _ _ _ = _ |- _ => lazymatch m with n => fail | _ => apply (while_up _ m n) in H; [|lia|done] end
  | H : switch_loop _ ?m _ _ _ _ _ = _ |- _ => lazymatch m with n => fail | _ => apply (switch_up _ m n) in H; [|lia|done] end
  | H : switch_cases _ ?m _ _ _ = _ |- _ => lazymatch m with n => fail | _ => apply (cases_up _ m n) in H; [|lia|done] end
  end.

Section Flow.
Context (P : prog).
Lemma process_order l : forall s s', (exists n, process P n l s = (Val tt, s')) <-> in_order P l s s'.
Proof.
  induction l as [|t l IH]; intros s s'; split.
  - intros [[|n] H]; [by rewrite process_0 in H|]. rewrite process_S in H. injection H as <-. constructor.
  - inversion 1; subst. exists 1. by rewrite process_S.
  - intros [[|n] H]; [by rewrite process_0 in H|]. rewrite process_S in H.
    apply bind_inv in H as (f & s1 & [= <- <-] & H).
    destruct (s_flow s) eqn:E; try (injection H as <-; apply order_stop; congruence).
    apply bind_inv in H as ([] & s2 & H1 & H2). eapply order_next; [done|by exists n|]. apply IH. by exists n.
  - inversion 1 as [|? ? ? Hf|? ? ? s1 ? Hf [n1 H1] Hr]; subst.
    + exists 1. rewrite process_S. unfold bind, get_flow. by destruct (s_flow s').
    + apply IH in Hr as [n2 H2]. exists (S (n1 + n2)). up (n1 + n2). rewrite process_S. unfold bind at 1, get_flow.
      rewrite Hf. by rewrite (bind_val _ _ _ _ _ H1).
Qed.
Lemma while_rounds c b d s s' : (exists n, while_loop P n c b d s = (Val tt, s')) <-> rounds P c b d s s'.
Proof.
  split.
  - intros [n H]. revert d s H. induction n as [|n IH]; intros d s H; [by rewrite while_loop_0 in H|]. rewrite while_loop_S in H.
    apply try_inv in H as [(v & s1 & H1 & H)|(f & s1 & H1 & _ & ->)]; [|apply round_cut; by exists n].
    destruct (is_true v) eqn:Ev; cbn in H; [|injection H as <-; eapply round_end; [by exists n|done]].
    apply bind_inv in H as ([] & s2 & H2 & H). apply bind_inv in H as (f & s3 & [= <- <-] & H).
    destruct (s_flow s2) eqn:Ef; try (injection H as <-).
    + apply bind_inv in H as ([] & s3 & [= <-] & H). eapply round_again; [by exists n|done|by exists n|by left|]. by apply IH.
    + eapply round_break; [by exists n|done|by exists n|done].
    + apply bind_inv in H as ([] & s3 & [= <-] & H). eapply round_again; [by exists n|done|by exists n|by right|]. by apply IH.
    + eapply round_leave; [by exists n|done|by exists n|unfold leaving; tauto].
    + eapply round_leave; [by exists n|done|by exists n|unfold leaving; tauto].
    + eapply round_leave; [by exists n|done|by exists n|unfold leaving; tauto].
  - induction 1 as [d s f s1 [n1 H1]|d s v s1 [n1 H1] Hv|d s v s1 s2 [n1 H1] Hv [n2 H2] Hf|d s v s1 s2 [n1 H1] Hv [n2 H2] Hf
        |d s v s1 s2 s3 [n1 H1] Hv [n2 H2] Hf Hr [n3 H3]].
    + exists (S n1). rewrite while_loop_S. by rewrite (try_raise _ _ _ _ _ _ H1).
    + exists (S n1). rewrite while_loop_S. rewrite (try_val _ _ _ _ _ _ H1), Hv. done.
    + exists (S (n1 + n2)). up (n1 + n2). rewrite while_loop_S. rewrite (try_val _ _ _ _ _ _ H1), Hv. cbn. rewrite (bind_val _ _ _ _ _ H2).
      unfold bind, get_flow. by rewrite Hf.
    + exists (S (n1 + n2)). up (n1 + n2). rewrite while_loop_S. rewrite (try_val _ _ _ _ _ _ H1), Hv. cbn. rewrite (bind_val _ _ _ _ _ H2).
      unfold bind, get_flow. by destruct Hf as [-> |[-> | ->]].
    + exists (S (n1 + n2 + n3)). up (n1 + n2 + n3). rewrite while_loop_S. rewrite (try_val _ _ _ _ _ _ H1), Hv. cbn. rewrite (bind_val _ _ _ _ _ H2).
      unfold bind, get_flow. by destruct Hf as [-> | ->].
Qed.

Lemma cases_chosen v cs s m s' : (exists n, switch_cases P n v cs s = (Val m, s')) <->
  match m with
  | Some true => exists pre ce b post s1 w s2, cs = pre ++ (ce, b) :: post /\ misses P v pre s s1 /\ evaluates P ce anon s1 w s2 /\
      compare_op (p_io P) CEq v w = Ok true /\ executes_block P b s2 s'
  | Some false => misses P v cs s s'
  | None => case_cut P v cs s s'
  end.
Proof.
  split.
  - intros [n H]. revert cs s H. induction n as [|n IH]; intros cs s H; [by rewrite switch_cases_0 in H|]. rewrite switch_cases_S in H.
    destruct cs as [|[ce b] cs]; [injection H as <- <-; constructor|].
    apply try_inv in H as [(w & s1 & H1 & H)|(f & s1 & H1 & -> & ->)]; [|eapply (a_case_cut P v ((ce, b) :: cs) [] ce b cs); [done|constructor|by exists n]].
    apply bind_inv in H as (q & s2 & H2 & H). unfold lift in H2. destruct (compare_op _ _ _ _) as [q'| | |] eqn:Ec; try done. injection H2 as -> <-.
    destruct q.
    + apply bind_inv in H as ([] & s3 & H3 & H). injection H as <- <-. exists [], ce, b, cs, s, w, s1.
      split; [done|]. split; [constructor|]. split; [by exists n|]. split; [done|]. by exists n.
    + apply IH in H. assert (evaluates P ce anon s w s1) as He by by exists n.
      destruct m as [[]|].
      * destruct H as (pre & ce' & b' & post & s3 & w' & s4 & -> & Hm & Hr). exists ((ce, b) :: pre), ce', b', post, s3, w', s4.
        split; [done|]. split; [|done]. econstructor; eauto.
      * econstructor; eauto.
      * inversion H; subst. eapply (a_case_cut P v _ ((ce, b) :: pre)); [done| |done]. econstructor; eauto.
  - assert (forall pre s s1, misses P v pre s s1 -> forall rest m s', (exists n, switch_cases P n v rest s1 = (Val m, s')) ->
      exists n, switch_cases P n v (pre ++ rest) s = (Val m, s')) as Hpre.
    { intros pre s0 s1. induction 1 as [|ce b cs0 s0 w s2 s3 [n1 H1] Hw Hm IH]; intros rest m0 s0' Hr; [done|].
      apply IH in Hr as [n2 H2]. exists (S (n1 + n2)). up (n1 + n2). cbn [app]. rewrite switch_cases_S. rewrite (try_val _ _ _ _ _ _ H1). unfold bind, lift.
      by rewrite Hw. }
    destruct m as [[]|].
    + intros (pre & ce & b & post & s1 & w & s2 & -> & Hm & [n1 H1] & Hw & [n2 H2]). eapply Hpre; [done|].
      exists (S (n1 + n2)). up (n1 + n2). rewrite switch_cases_S. rewrite (try_val _ _ _ _ _ _ H1). unfold bind, lift. rewrite Hw. by rewrite H2.
    + intros Hm. rewrite <- (app_nil_r cs). eapply Hpre; [done|]. exists 1. by rewrite switch_cases_S.
    + inversion 1 as [pre ce b post ? s1 f s2 -> Hm [n1 H1]]; subst. eapply Hpre; [done|].
      exists (S n1). rewrite switch_cases_S. by rewrite (try_raise _ _ _ _ _ _ H1).
Qed.

Lemma switch_selects e cs d o s s' : (exists n, switch_loop P n e cs d o s = (Val tt, s')) <-> selects P e cs d o s s'.
Proof.
  split.
  - intros [n H]. revert o s H. induction n as [|n IH]; intros o s H; [by rewrite switch_loop_0 in H|]. rewrite switch_loop_S in H. cbv zeta in H.
    assert (forall v (b : bool) s1 s2, (cs <> [] /\ evaluates P e o s v s1 \/ cs = [] /\ v = o /\ s1 = s) ->
      (if b then chosen P v cs d s1 s2 else misses P v cs s1 s2) ->
      (do_ (if b then ret tt else block P n d); do f <- get_flow;
        match f with
        | FBreak | FNormal => set_flow FNormal
        | FContinue => do_ set_flow FNormal; switch_loop P n e cs d v
        | _ => ret tt end) s2 = (Val tt, s') -> selects P e cs d o s s') as Htail.
    { intros v b s1 s2 Hv Hb Hr. apply bind_inv in Hr as ([] & s3 & H3 & Hr). apply bind_inv in Hr as (f & s4 & [= <- <-] & Hr).
      assert (chosen P v cs d s1 s3) as Hc.
      { destruct b; [by injection H3 as <-|]. eapply chosen_default; [done|by exists n]. }
      destruct (s_flow s3) eqn:Ef; try (injection Hr as <-).
      - eapply select_end; eauto.
      - eapply select_end; eauto.
      - apply bind_inv in Hr as ([] & s4 & [= <-] & Hr). eapply select_restart; [done|done|done|]. by apply IH.
      - eapply select_leave; [done|done|unfold leaving; tauto].
      - eapply select_leave; [done|done|unfold leaving; tauto].
      - eapply select_leave; [done|done|unfold leaving; tauto]. }
    destruct cs as [|c cs'].
    { eapply (Htail o false s s); [by right|constructor|done]. }
    apply try_inv in H as [(v & s1 & H1 & H)|(f & s1 & H1 & _ & ->)]; [|apply select_cut; [done|by exists n]].
    apply bind_inv in H as (m & s2 & H2 & H).
    assert (exists n, switch_cases P n v (c :: cs') s1 = (Val m, s2)) as Hc by by exists n. apply cases_chosen in Hc.
    destruct m as [[]|].
    + destruct Hc as (pre & ce & b & post & s3 & w & s4 & Hcs & Hm & He & Hw & Hb). eapply (Htail v true); [left; split; [done|by exists n]| |done].
      eapply chosen_case; eauto.
    + eapply (Htail v false); [left; split; [done|by exists n]|done|done].
    + injection H as <-. eapply select_case_cut; [done|by exists n|done].
  - intros H.
    assert (forall o s v s1 s2 s', (cs <> [] /\ evaluates P e o s v s1 \/ cs = [] /\ v = o /\ s1 = s) -> chosen P v cs d s1 s2 ->
      (exists N, forall n, N <= n -> (do f <- get_flow;
        match f with
        | FBreak | FNormal => set_flow FNormal
        | FContinue => do_ set_flow FNormal; switch_loop P n e cs d v
        | _ => ret tt end) s2 = (Val tt, s')) -> exists n, switch_loop P n e cs d o s = (Val tt, s')) as Htail.
    { clear. intros o s v s1 s2 s' Hv Hc [N HN].
      assert (exists (b : bool) s3, (exists n, switch_cases P n v cs s1 = (Val (Some b), s3)) /\ (if b then s3 = s2 else executes_block P d s3 s2)) as (b & s3 & [n1 H1] & Hb).
      { inversion Hc as [pre ce b post ? s3 w s4 ? Hcs|? s3 ? Hm]; subst.
        - exists true, s2. split; [|done]. apply cases_chosen. do 7 eexists. eauto.
        - exists false, s3. split; [by apply cases_chosen|done]. }
      assert (exists n2, (if b then ret tt else block P n2 d) s3 = (Val tt, s2) /\ forall n, n2 <= n -> (if b then ret tt else block P n d) s3 = (Val tt, s2)) as (n2 & _ & H2).
      { destruct b; [subst; by exists 0|]. destruct Hb as [n2 H2]. exists n2. split; [done|]. intros n Hn. by up n. }
      destruct Hv as [[Hne [n3 H3]]|(-> & -> & ->)].
      - exists (S (n1 + n2 + n3 + N)). up (n1 + n2 + n3 + N). specialize (H2 (n1 + n2 + n3 + N) ltac:(lia)). specialize (HN (n1 + n2 + n3 + N) ltac:(lia)).
        set (n := n1 + n2 + n3 + N) in *. clearbody n. rewrite switch_loop_S. cbv zeta. destruct cs as [|c cs']; [done|].
        rewrite (try_val _ _ _ _ _ _ H3). rewrite (bind_val _ _ _ _ _ H1). rewrite (bind_val _ _ _ _ _ H2). done.
      - destruct n1 as [|n1]; [by rewrite switch_cases_0 in H1|]. rewrite switch_cases_S in H1. injection H1 as <- <-.
        exists (S (n2 + N)). specialize (H2 (n2 + N) ltac:(lia)). specialize (HN (n2 + N) ltac:(lia)).
        set (n := n2 + N) in *. clearbody n. rewrite switch_loop_S. cbv beta iota zeta. rewrite (bind_val _ _ _ _ _ H2). done. }
    induction H as [o s f s1 Hne [n1 H1]|o s v s1 s2 Hne [n1 H1] Hc|o s v s1 s2 Hv Hc Hf|o s v s1 s2 Hv Hc Hf|o s v s1 s2 s3 Hv Hc Hf Hr [n3 H3]].
    + exists (S n1). rewrite switch_loop_S. cbv zeta. destruct cs as [|c cs']; [done|]. by rewrite (try_raise _ _ _ _ _ _ H1).
    + assert (exists n, switch_cases P n v cs s1 = (Val None, s2)) as [n2 H2] by by apply cases_chosen.
      exists (S (n1 + n2)). up (n1 + n2). rewrite switch_loop_S. cbv zeta. destruct cs as [|c cs']; [done|].
      rewrite (try_val _ _ _ _ _ _ H1). by rewrite (bind_val _ _ _ _ _ H2).
    + eapply Htail; [done|done|]. exists 0. intros n _. unfold bind, get_flow. by destruct Hf as [-> | ->].
    + eapply Htail; [done|done|]. exists 0. intros n _. unfold bind, get_flow. by destruct Hf as [-> |[-> | ->]].
    + eapply Htail; [done|done|]. exists n3. intros n Hn. up n. unfold bind, get_flow. by rewrite Hf.
Qed.

Lemma handle_handled cs s s' : (exists n, handle P n cs s = (Val tt, s')) <-> handled P cs s s'.
Proof.
  split.
  - intros [[|n] H]; [by rewrite handle_0 in H|]. rewrite handle_S in H. apply bind_inv in H as (f & s1 & [= <- <-] & H).
    destruct (s_flow s) eqn:Ef; try (injection H as <-; apply handled_not_thrown; congruence).
    apply bind_inv in H as ([] & s1 & H1 & H). apply bind_inv in H as (e & s2 & [= <- <-] & H).
    destruct (find_catch P (w_exn (s_world s1)) cs) as [[d h]|] eqn:Ec.
    + assert (s1 = s) as -> by (destruct cs; [done|by injection H1 as <-]). apply find_catch_some in Ec.
      apply bind_inv in H as ([] & s2 & H2 & H). apply bind_inv in H as ([] & s3 & H3 & H). apply bind_inv in H as ([] & s4 & [= <-] & H).
      apply bind_inv in H as ([] & s5 & H5 & H).
      unfold push_scope in H2. destruct (s_frames s) as [|fr r] eqn:Efr; [done|]. injection H2 as <-.
      eapply handled_by; [done|done| |by exists n|].
      * unfold entered. rewrite Efr. exists (match s_frames s3 with f :: _ => match fr_scopes f with sc :: _ => sc | _ => [] end | _ => [] end), fr, r. split; [done|].
        destruct d as [[t x]|]; [|by injection H3 as <-]. destruct (w_exn (s_world s)) as [o|]; [|by injection H3 as <-].
        apply bind_inv in H3 as ([] & s4 & H3 & H4). unfold define in H3. cbn in H3. injection H3 as <-.
        apply bind_inv in H4 as (v & s4 & H3 & H4). unfold lift in H3. destruct (assign_to P (default_obj t) o) as [v'| | |] eqn:Ea; try done. injection H3 as <- <-.
        unfold store_var in H4. cbn in H4. rewrite !str_eqb_refl in H4. cbn in H4. rewrite ?str_eqb_refl in H4. injection H4 as <-. cbn. eauto.
      * unfold pop_scope in H. destruct (s_frames s5) as [|[[|sc l] rv] r5] eqn:E5; try done. injection H as <-. unfold left_scope. rewrite E5. eauto 10.
    + injection H as <-. destruct cs as [|c cs'].
      * injection H1 as <-. by apply handled_no_clauses.
      * injection H1 as <-. apply handled_not_accepted; [done|done|]. by apply find_catch_none.
  - destruct 1 as [s Hf|s Hf ->|s Hf Hne Hn|s d h s1 s2 s3 Hf Hfa (sc & fr & r & Hfr & -> & Hd) [n2 H2] (sc' & l & rv & r' & Hs2 & ->)].
    + exists 1. rewrite handle_S. unfold bind, get_flow. by destruct (s_flow s).
    + exists 1. rewrite handle_S. unfold bind, get_flow. by rewrite Hf.
    + exists 1. rewrite handle_S. unfold bind, get_flow. rewrite Hf. destruct cs; [done|]. cbn [ret get_exn]. cbv beta iota. unfold ret, get_exn.
      apply find_catch_none in Hn. by rewrite Hn.
    + exists (S n2). rewrite handle_S. unfold bind, get_flow. rewrite Hf. destruct cs as [|c cs]; [by destruct Hfa as ([] & ? & ? & ?)|].
      unfold ret, get_exn. apply find_catch_some in Hfa. rewrite Hfa. unfold push_scope. rewrite Hfr.
      assert ((match d, w_exn (s_world s) with
               | Some (t, x), Some o => do_ define x (default_obj t); do v <- lift (assign_to P (default_obj t) o); store_var x v
               | _, _ => ret tt end) (St (Frame ([] :: fr_scopes fr) (fr_ret fr) :: r) (s_world s) (s_flow s)) =
              (Val tt, St (Frame (sc :: fr_scopes fr) (fr_ret fr) :: r) (s_world s) (s_flow s))) as Hx.
      { destruct d as [[t x]|]; [|by subst]. destruct (w_exn (s_world s)) as [o|]; [|by subst]. destruct Hd as (v & Ha & ->).
        unfold bind, define, lift. cbn. rewrite Ha. unfold store_var. cbn. rewrite !str_eqb_refl. cbn. by rewrite ?str_eqb_refl. }
      unfold bind, ret in Hx. rewrite Hf in Hx. rewrite ?Hf, Hx. unfold set_flow. cbn [s_frames s_world]. rewrite H2. unfold pop_scope. by rewrite Hs2.
Qed.
Lemma finish_finished fin s s' : (exists n, finish P n fin s = (Val tt, s')) <-> finished P fin s s'.
Proof.
  split.
  - intros [[|n] H]; [by rewrite finish_0 in H|]. rewrite finish_S in H. apply bind_inv in H as (f & s1 & [= <- <-] & H).
    apply bind_inv in H as ([] & s1 & H1 & H). apply bind_inv in H as (f & s2 & [= <- <-] & H).
    destruct fin as [l|].
    + apply bind_inv in H1 as ([] & s2 & [= <-] & H1).
      destruct (s_flow s1) eqn:E; injection H as <-; [eapply finished_pending; [done|by exists n|done]|..]; (eapply finished_own; [done|by exists n|congruence]).
    + injection H1 as <-. assert (s' = s) as ->; [|by apply finished_none]. destruct s as [fr w f]. cbn in H. destruct f; by injection H as <-.
  - destruct 1 as [s ->|s l s1 -> [n H1] Hf|s l s1 -> [n H1] Hf].
    + exists 1. rewrite finish_S. unfold bind, get_flow, ret, set_flow. destruct s as [fr w []]; done.
    + exists (S n). rewrite finish_S. unfold bind, get_flow, ret, set_flow. unfold with_flow in H1. rewrite H1, Hf. done.
    + exists (S n). rewrite finish_S. unfold bind, get_flow, ret, set_flow. unfold with_flow in H1. rewrite H1. by destruct (s_flow s1).
Qed.
Lemma try_executes b cs fin s s' : executes P (STry b cs fin) s s' <->
  exists s1 s2, executes_block P b s s1 /\ handled P cs s1 s2 /\ finished P fin s2 s'.
Proof.
  split.
  - intros [[|n] H]; [by rewrite visit_0 in H|]. rewrite visit_S in H. apply bind_inv in H as ([] & s1 & H1 & H). apply bind_inv in H as ([] & s2 & H2 & H).
    exists s1, s2. split; [by exists n|]. split; [apply handle_handled|apply finish_finished]; by exists n.
  - intros (s1 & s2 & [n1 H1] & H2 & H3). apply handle_handled in H2 as [n2 H2]. apply finish_finished in H3 as [n3 H3].
    exists (S (n1 + n2 + n3)). up (n1 + n2 + n3). rewrite visit_S. rewrite (bind_val _ _ _ _ _ H1), (bind_val _ _ _ _ _ H2). done.
Qed.
End Flow.
