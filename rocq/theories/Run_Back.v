(** What the interpreter computes, the semantics of the language allows: nothing but an overflow, a division by zero, a failed
    assertion or missing steps comes between. *)
From Coq Require Import Floats.SpecFloat.
From Verif Require Import Base Base_Proofs Text_Model Tok_Model TypeTable TypeSys_Model Value_Model Parse_Spec Stmt_Spec Interp_Model Interp_Spec Interp_Eqs Interp_Proofs Run_Spec Run_Base Run_Static Run_Load Run_Env Run_Fwd.

(** [good R p]: the computation ended with a value and a state in [R], or it was stopped. *)
Definition good {A} (R : A -> st -> Prop) (p : out A * st) : Prop :=
  match p with
  | (Val a, s) => R a s
  | (Raise _, _) => False
  | (Crash e, _) => @Crash A e = Crash "AssertionFailed"
  | (Undef, _) | (NoFuel, _) => True
  end.
Lemma good_bind {A B} (m : Interp_Model.M A) (k : A -> Interp_Model.M B) Q R s : good Q (m s) -> (forall a s', Q a s' -> good R (k a s')) -> good R (bind m k s).
Proof. unfold bind, good. destruct (m s) as [[a|f|e| |] s']; intros H HK; try done; [by apply HK|by injection H as ->]. Qed.
Lemma good_try {A B} (m : Interp_Model.M A) (d : B) (k : A -> Interp_Model.M B) Q R s :
  good Q (m s) -> (forall a s', Q a s' -> good R (k a s')) -> good R (try_control m d k s).
Proof. unfold try_control, good. destruct (m s) as [[a|f|e| |] s']; intros H HK; try done; [by apply HK|by injection H as ->]. Qed.
Lemma good_step {A B} (m : Interp_Model.M A) (k : A -> Interp_Model.M B) R s a s' : m s = (Val a, s') -> good R (k a s') -> good R (bind m k s).
Proof. intros H HK. by rewrite (bind_val _ _ _ _ _ H). Qed.
Lemma good_lift {A B} (r : res A) (k : A -> Interp_Model.M B) R s : (r = UB \/ exists a, r = Ok a /\ good R (k a s)) -> good R (bind (lift r) k s).
Proof. intros [->|(a & -> & H)]; done. Qed.

Lemma good_mono {A} (Q R : A -> st -> Prop) p : good Q p -> (forall a s, Q a s -> R a s) -> good R p.
Proof. destruct p as [[a|f|e| |] s]; cbn; auto. Qed.

(** Statements without a tree do nothing. *)
Lemma leave_same ρ : leave ρ ρ = ρ.
Proof. unfold leave. by rewrite Nat.sub_diag. Qed.
Lemma no_tree M r :
  (forall b G s q G', low M r b G s q G' -> q = None -> G' = G /\ forall ρ, does M ρ s Onward ρ []) /\
  (forall b G l q G', low_all M r b G l q G' -> q = [] -> forall ρ, does_all M ρ l Onward ρ []).
Proof.
  apply low_both; try done.
  - intros b G _. split; [done|]. constructor.
  - intros b G G1 l q _ IH Hq. split; [done|]. intros ρ. destruct q; [|done]. rewrite <- (leave_same ρ) at 2. constructor. by apply IH.
  - intros b G _ ρ. constructor.
  - intros b G G1 G2 s l q ql _ IHs _ IHl Hq ρ. destruct q; [done|]. destruct (IHs eq_refl) as [_ H]. change (@nil str) with (@nil str ++ []).
    econstructor; [apply H|by apply IHl].
Qed.

Section Back.
Context (M : program) (P : prog) (W : well_typed M) (L : Forall2 (linked M) M (p_methods P)).
Notation F := (p_io P).

Definition Ge n := forall G x t e, lx M G x t e -> forall scs pre d rv w fs, fits_env G scs -> hidden pre G -> takes d t ->
  good (fun a s => exists v scs' o, a = obj_of v /\ has_type v t /\ value M (concat scs) x v (concat scs') o /\ fits_env G scs' /\
          s = embed (cx (hide pre scs') rv (say w o)) fs FNormal)
    (eval P n e d (embed (cx (hide pre scs) rv w) fs FNormal)).
Definition Ges n := forall G l ts es, lxs M G l ts es -> forall scs pre rv w fs, fits_env G scs -> hidden pre G ->
  good (fun a s => exists vs scs' o, a = map obj_of vs /\ Forall2 has_type vs ts /\ values M (concat scs) l vs (concat scs') o /\ fits_env G scs' /\
          s = embed (cx (hide pre scs') rv (say w o)) fs FNormal)
    (eval_args P n es (embed (cx (hide pre scs) rv w) fs FNormal)).
Definition Gc n := forall f m vs d s, find_meth M f = Some m -> Forall2 has_type vs (map fst (me_params m)) -> s_flow s = FNormal ->
  good (fun a s' => exists r o, typed_end (me_ret m) r /\ a = (match r with Some v => obj_of v | None => d end) /\ Run_Spec.calls M f vs r o /\
          s' = St (s_frames s) (say (s_world s) o) FNormal)
    (call P n f (map obj_of vs) d s).
Definition Gp n := forall G f args m es, find_meth M f = Some m -> me_ret m = None -> lxs M G args (map fst (me_params m)) es ->
  forall scs w fs, fits_env G scs ->
  good (fun _ s => exists scs' o, does M (concat scs) (YExpr (XCall f args)) Onward (concat scs') o /\ fits_env G scs' /\
          s = embed (cx scs' anon (say w o)) fs FNormal)
    (eval P n (ECall f es) anon (embed (cx scs anon w) fs FNormal)).
Definition Gx n := forall f m q G vs d s, find_meth M f = Some m -> low_all M (me_ret m) false [vars (me_params m)] (me_body m) q G ->
  Forall2 has_type vs (map fst (me_params m)) -> s_flow s = FNormal ->
  good (fun a s' => exists r o k, typed_end (me_ret m) r /\ a = (match r with Some v => obj_of v | None => d end) /\ Run_Spec.calls M f vs r o /\
          (k = FNormal \/ k = FReturn) /\ s' = St (s_frames s) (say (s_world s) o) k)
    (execute P n (Method (ret_word (me_ret m)) (words (me_params m)) q) (map obj_of vs) d s).
Definition Gd n := forall r b G s q G', low M r b G s q G' -> forall scs w fs, fits_env G scs ->
  good (fun _ s' => exists k scs' Z o, does M (concat scs) s k (concat scs') o /\ fits_env G' scs' /\ ends b r k /\ lands k scs' Z /\
          s' = embed (Ctx Z (rv_of k) (say w o)) fs (flow_of (ending_of k)))
    (visit P n (stm q) (embed (cx scs anon w) fs FNormal)).
Definition Gl n := forall r b G l q G', low_all M r b G l q G' -> G <> [] -> forall scs w fs, fits_env G scs ->
  good (fun _ s' => exists k scs' Z G'' o, does_all M (concat scs) l k (concat scs') o /\ fits_env G'' scs' /\ tail G'' = tail G /\ G'' <> [] /\ ends b r k /\ lands k scs' Z /\
          s' = embed (Ctx Z (rv_of k) (say w o)) fs (flow_of (ending_of k)))
    (process P n q (embed (cx scs anon w) fs FNormal)).
Definition Gw n := forall r bl G c c' b qb, lx M G c TBool c' -> low M r bl G b qb G -> forall scs d w fs, fits_env G scs -> takes d TBool ->
  good (fun _ s' => exists k scs' Z o, Run_Spec.rounds M (concat scs) c None b k (concat scs') o /\ fits_env G scs' /\ ends false r k /\ lands k scs' Z /\
          s' = embed (Ctx Z (rv_of k) (say w o)) fs (flow_of (ending_of k)))
    (while_loop P n c' (stm qb) d (embed (cx scs anon w) fs FNormal)).
Definition Gf n := forall r bl G c c' b qb u qu, lx M G c TBool c' -> low M r bl G b qb G -> low M r false G u qu G -> steady true false b = true -> steady false false u = true ->
  G <> [] -> forall scs d w fs, fits_env G scs -> takes d TBool ->
  good (fun _ s' => exists k scs' Z o, Run_Spec.rounds M (concat scs) c (Some u) b k (concat scs') o /\ fits_env G scs' /\ ends false r k /\ lands k (tail scs') Z /\
          s' = embed (Ctx Z (rv_of k) (say w o)) fs (flow_of (ending_of k)))
    (for_loop P n (Some c') (stm qu) (stm qb) d (embed (cx scs anon w) fs FNormal)).
Definition Gb n := forall r b G G1 l q, low_all M r b ([] :: G) l q G1 -> forall scs w fs, fits_env G scs ->
  good (fun _ s' => exists k scs' Z o, does M (concat scs) (YBlock l) k (concat scs') o /\ fits_env G scs' /\ ends b r k /\ lands k scs' Z /\
          s' = embed (Ctx Z (rv_of k) (say w o)) fs (flow_of (ending_of k)))
    (block P n q (embed (cx scs anon w) fs FNormal)).

Lemma tail_fits G scs : fits_env G scs -> G <> [] -> exists s r, scs = s :: r.
Proof. intros [|]; [done|]. eauto. Qed.

Lemma step_expr n : Ge n -> Ges n -> Gc n -> Ge (S n).
Proof.
  intros IH IHs IHc G x t e Hx scs pre d rv w fs Fi Hh Td. rewrite eval_S.
  destruct Hx as [s z Hn Hz|s|s|x t Ht|f args m t es Hm Hr Hl|s a e Ha|s a e Ha|x s Ht|x s Ht|c a b t ec ea eb Hc Ha Hb|op s a b ea eb Hop Ha Hb|k op s a b t u v ea eb Hk Ho Ha Hb|op s0 a b t u v ea eb Hn Ho Ha Hb|s a b t ea eb Ha Hb].
  - exists (VInt z), scs, []. rewrite say_nil. split; [done|]. split; [by eapply number_literal|]. split; [by constructor|]. done.
  - eexists (VBool _), scs, []. rewrite say_nil. split; [done|]. split; [done|]. split; [by constructor|]. done.
  - exists (VText s), scs, []. rewrite say_nil. split; [done|]. split; [done|]. split; [by constructor|]. done.
  - destruct (get_typed G scs pre x t rv w Fi Hh Ht) as (v & H1 & H2 & H3). eapply good_step; [apply lookup_embed|]. rewrite H3.
    exists v, scs, []. rewrite say_nil. split; [done|]. split; [done|]. split; [by constructor|]. done.
  - eapply good_bind; [by apply (IHs _ _ _ _ Hl)|]. cbv beta. intros a s' (vs & scs' & o & -> & H1 & H2 & H3 & ->).
    pose proof (IHc f m vs d (embed (cx (hide pre scs') rv (say w o)) fs FNormal) Hm H1 eq_refl) as H.
    destruct (call P n f (map obj_of vs) d _) as [[a|?|?| |] s']; try done. destruct H as (r & o' & H4 & -> & H5 & ->).
    rewrite Hr in H4. destruct r as [v|]; [|done]. exists v, scs', (o ++ o'). rewrite <- say_say. split; [done|]. split; [done|]. split; [by econstructor|]. done.
  - eapply good_bind; [by apply (IH _ _ _ _ Ha)|]. cbv beta. intros v s' (v' & scs' & o & -> & H1 & H2 & H3 & ->).
    destruct v' as [z|?|?]; try done. rewrite int_un; [|exact H1|by left]. destruct (fits_dec (- z)) as [Hf|Hf]; [rewrite checked_fits by done|by rewrite checked_not].
    exists (VInt (- z)), scs', o. split; [done|]. split; [done|]. split; [by constructor|]. done.
  - eapply good_bind; [by apply (IH _ _ _ _ Ha)|]. cbv beta. intros v s' (v' & scs' & o & -> & H1 & H2 & H3 & ->).
    destruct v' as [?|b|?]; try done. rewrite not_un. exists (VBool (negb b)), scs', o. split; [done|]. split; [done|]. split; [by constructor|]. done.
  - destruct (get_typed G scs pre x TInt rv w Fi Hh Ht) as (v & H1 & H2 & H3). eapply good_step; [by apply lvalue_embed|].
    destruct v as [z|?|?]; try done. apply good_lift. rewrite int_un; [|exact H2|right; by left].
    destruct (fits_dec (z + 1)) as [Hf|Hf]; [rewrite checked_fits by done|left; by rewrite checked_not]. right. eexists. split; [reflexivity|].
    destruct (set_typed G scs pre x TInt (VInt (z + 1)) rv w Fi Hh Ht Hf) as (H4 & H5 & H6).
    eapply good_step; [by apply store_embed|]. rewrite (assign_takes P d (VInt (z + 1)) TInt Td Hf).
    exists (VInt (z + 1)), (supd scs x (VInt (z + 1))), []. rewrite say_nil, H5. split; [done|]. split; [done|]. split; [by constructor|]. done.
  - destruct (get_typed G scs pre x TInt rv w Fi Hh Ht) as (v & H1 & H2 & H3). eapply good_step; [by apply lvalue_embed|].
    destruct v as [z|?|?]; try done. apply good_lift. rewrite int_un; [|exact H2|right; right; by left].
    destruct (fits_dec (z - 1)) as [Hf|Hf]; [rewrite checked_fits by done|left; by rewrite checked_not]. right. eexists. split; [reflexivity|].
    destruct (set_typed G scs pre x TInt (VInt (z - 1)) rv w Fi Hh Ht Hf) as (H4 & H5 & H6).
    eapply good_step; [by apply store_embed|]. rewrite (assign_takes P d (VInt (z - 1)) TInt Td Hf).
    exists (VInt (z - 1)), (supd scs x (VInt (z - 1))), []. rewrite say_nil, H5. split; [done|]. split; [done|]. split; [by constructor|]. done.
  - eapply good_bind; [by apply (IH _ _ _ _ Hc); [..|apply takes_anon]|]. cbv beta. intros v s' (v' & s1 & o & -> & H1 & H2 & H3 & ->).
    destruct v' as [?|c0|?]; try done. rewrite is_true_bool.
    assert (H : exists x' e', lx M G x' t e' /\ x' = (if c0 then a else b) /\ e' = (if c0 then ea else eb)) by (destruct c0; eauto).
    destruct H as (x' & e' & Hl & Hx' & He').
    pose proof (IH _ _ _ _ Hl s1 pre d rv (say w o) fs H3 Hh Td) as H.
    assert (HR : (if c0 then eval P n ea d else eval P n eb d) = eval P n e' d) by (subst e'; by destruct c0). rewrite HR.
    destruct (eval P n e' d _) as [[?|?|?| |] s']; try done. destruct H as (v & s2 & o' & -> & A1 & A2 & A3 & ->).
    exists v, s2, (o ++ o'). rewrite <- say_say. split; [done|]. split; [done|]. split; [|done]. eapply v_condition; [exact H2|]. by rewrite <- Hx'.
  - eapply good_bind; [by apply (IH _ _ _ _ Ha); [..|apply takes_anon]|]. cbv beta. intros v s' (v' & s1 & o & -> & H1 & H2 & H3 & ->).
    destruct v' as [?|c0|?]; try done. destruct Hop as [->| ->]; rewrite !is_true_bool; destruct c0; cbn [negb].
    + eapply good_bind; [by apply (IH _ _ _ _ Hb); [..|apply takes_anon]|]. cbv beta. intros v s' (v' & s2 & o' & -> & A1 & A2 & A3 & ->).
      destruct v' as [?|c1|?]; try done. rewrite is_true_bool. exists (VBool c1), s2, (o ++ o'). rewrite <- say_say. split; [done|]. split; [done|]. split; [by econstructor|]. done.
    + exists (VBool false), s1, o. split; [done|]. split; [done|]. split; [by econstructor|]. done.
    + exists (VBool true), s1, o. split; [done|]. split; [done|]. split; [by econstructor|]. done.
    + eapply good_bind; [by apply (IH _ _ _ _ Hb); [..|apply takes_anon]|]. cbv beta. intros v s' (v' & s2 & o' & -> & A1 & A2 & A3 & ->).
      destruct v' as [?|c1|?]; try done. rewrite is_true_bool. exists (VBool c1), s2, (o ++ o'). rewrite <- say_say. split; [done|]. split; [done|]. split; [by econstructor|]. done.
  - eapply good_bind; [by apply (IH _ _ _ _ Ha); [..|apply takes_anon]|]. cbv beta. intros ? s' (va & s1 & o & -> & H1 & H2 & H3 & ->).
    eapply good_bind; [by apply (IH _ _ _ _ Hb); [..|apply takes_anon]|]. cbv beta. intros ? s' (vb & s2 & o' & -> & A1 & A2 & A3 & ->).
    apply good_lift. destruct (arithmetic P k op t u v va vb Hk Ho H1 A1) as [(v' & C1 & C2 & C3)|[C _]]; [right|by left].
    eexists. split; [exact C3|]. rewrite (assign_takes P d v' v Td C2). exists v', s2, (o ++ o'). rewrite <- say_say.
    split; [done|]. split; [done|]. split; [by econstructor|]. done.
  - eapply good_bind; [by apply (IH _ _ _ _ Ha); [..|apply takes_anon]|]. cbv beta. intros ? s' (va & s1 & o & -> & H1 & H2 & H3 & ->).
    assert (HB : good (fun a0 s => exists v0 scs' o0, a0 = obj_of v0 /\ has_type v0 v /\ value M (concat scs) (XBin 2 op s0 a b) v0 (concat scs') o0 /\ fits_env G scs' /\
        s = embed (cx (hide pre scs') rv (say w o0)) fs FNormal)
      ((do r <- eval P n eb anon; lift (eval_boolean F op (obj_of va) r)) (embed (cx (hide pre s1) rv (say w o)) fs FNormal))).
    { eapply good_bind; [by apply (IH _ _ _ _ Hb); [..|apply takes_anon]|]. cbv beta. intros ? s' (vb & s2 & o' & -> & A1 & A2 & A3 & ->).
      destruct (comparison P op t u v va vb Hn Ho H1 A1) as (r & -> & C2 & C3 & C4). rewrite C3. exists (VBool r), s2, (o ++ o'). rewrite <- say_say.
      split; [done|]. split; [done|]. split; [by econstructor|]. done. }
    destruct op; try discriminate Ho; exact HB.
  - assert (He : lx M G (XBin 2 COMPARE_EQUAL s a b) TBool (EBool COMPARE_EQUAL ea eb)).
    { eapply lx_compare; [done| |exact Ha|exact Hb]. cbn [operation_type]. by rewrite bool_decide_true. }
    eapply good_bind; [exact (IH _ _ _ _ He scs pre d rv w fs Fi Hh Td)|]. cbv beta. intros ? s' (v & s1 & o & -> & H1 & H2 & H3 & ->).
    destruct v as [?|r|?]; try done. rewrite not_un. exists (VBool (negb r)), s1, o. split; [done|]. split; [done|]. split; [|done].
    inversion H2 as [| | | | | | | | | | | | | |? ? ? ? ? ? va vb ? ? ? o1 o2 V1 V2 C]; subst. inversion C; subst. eapply v_operation; [exact V1|exact V2|constructor].
Qed.
Lemma step_exprs n : Ge n -> Ges n -> Ges (S n).
Proof.
  intros IH IHs G l ts es Hx scs pre rv w fs Fi Hh. rewrite eval_args_S. destruct Hx as [|a l t ts e es Ha Hl].
  - exists [], scs, []. rewrite say_nil. split; [done|]. split; [constructor|]. split; [constructor|]. done.
  - eapply good_bind; [by apply (IH _ _ _ _ Ha); [..|apply takes_anon]|]. cbv beta. intros ? s' (v & s1 & o & -> & H1 & H2 & H3 & ->).
    eapply good_bind; [by apply (IHs _ _ _ _ Hl)|]. cbv beta. intros ? s' (vs & s2 & o' & -> & A1 & A2 & A3 & ->).
    exists (v :: vs), s2, (o ++ o'). rewrite <- say_say. split; [done|]. split; [by constructor|]. split; [by econstructor|]. done.
Qed.
Lemma step_execute n : Gl n -> Gx (S n).
Proof.
  intros IH f m q G vs d s Hm Hlow Ht Hs. rewrite execute_S. cbn [m_params m_body m_ret].
  destruct (find_ok M W f m Hm) as (_ & ND & _ & _ & Hret). rewrite map_map in ND.
  destruct (bind_typed (me_params m) vs ND Ht) as [Hbind Hsame]. apply good_lift. right. eexists. split; [exact Hbind|].
  destruct s as [fr w fl]. cbn [s_flow s_frames s_world] in *. subst fl.
  eapply good_step; [reflexivity|]. cbn [s_frames s_world s_flow].
  assert (Fi : fits_env [vars (me_params m)] [zip (map snd (me_params m)) vs]) by (constructor; [exact Hsame|constructor]).
  eapply good_bind; [by apply (IH _ _ _ _ _ _ Hlow ltac:(done) [zip (map snd (me_params m)) vs] w fr)|]. cbv beta.
  intros _ s' (k & scs' & Z & G'' & o & H1 & _ & _ & _ & He & _ & ->). eapply good_step; [reflexivity|]. cbn [embed s_frames s_world s_flow x_world].
  cbn [concat] in H1. rewrite app_nil_r in H1.
  assert (Hlen : length vs = length (me_params m)) by (apply Forall2_length in Ht; by rewrite map_length in Ht).
  destruct k as [| | |r]; try done.
  - destruct (me_ret m) as [t|] eqn:Hrt.
    { by destruct (proj1 (proj2 (returned M)) _ _ _ _ _ H1 (Hret ltac:(done))). }
    exists None, o, FNormal. split; [done|]. split; [done|]. split; [|auto]. econstructor; try done. right. done.
  - exists r, o, FReturn. split; [exact He|]. split; [|split; [econstructor; try done; by left|auto]].
    cbn [ends] in He. destruct (me_ret m) as [t|], r as [v|]; try done. by destruct t.
Qed.
Lemma step_call n : Gx n -> Gc (S n).
Proof.
  intros IH f m vs d s Hm Ht Hs. rewrite call_S. destruct (find_linked M (p_methods P) f m L Hm) as (q & G & Hf & Hlow).
  assert (Hlen : length (map obj_of vs) = length (me_params m)) by (rewrite map_length; apply Forall2_length in Ht; by rewrite map_length in Ht).
  rewrite Hlen, Hf. eapply good_bind; [by apply (IH f m q G vs d s)|]. cbv beta. intros a s' (r & o & k & H1 & -> & H2 & Hk & ->).
  destruct Hk as [->| ->]; exists r, o; done.
Qed.
Lemma process_stop n l s : s_flow s <> FNormal -> process P n l s = (NoFuel, s) \/ process P n l s = (Val tt, s).
Proof.
  intros H. destruct n; [by left|]. right. rewrite process_S. destruct l; [done|]. unfold bind, get_flow. by destruct (s_flow s).
Qed.
Lemma step_list n : Gd n -> Gl n -> Gl (S n).
Proof.
  intros IHd IHl r b G l. induction l as [|s l IH]; intros q G' Hx HG scs w fs Fi.
  - inversion Hx; subst. rewrite process_S. exists Onward, scs, (oscopes scs), G', []. rewrite say_nil. split; [constructor|]. done.
  - inversion Hx as [|? ? G1 ? ? ? qs ql Hs Hl]; subst. destruct (low_tail _ _ _ _ _ _ _ Hs) as [T1 T2]. destruct qs as [qs|]; cbn [add].
    + rewrite process_S. eapply good_step; [apply get_flow_embed|].
      eapply good_bind; [exact (IHd _ _ _ _ _ _ Hs scs w fs Fi)|]. cbv beta. intros _ s' (k & s1 & Z & o & A1 & A2 & A3 & AL & ->).
      assert (Hk : k = Onward \/ k <> Onward) by (destruct k; auto). destruct Hk as [->|Hk].
      * cbn [lands] in AL. subst Z. pose proof (IHl _ _ _ _ _ _ Hl (T2 HG) s1 (say w o) fs A2) as H. cbn [ending_of flow_of rv_of].
        destruct (process P n ql _) as [[?|?|?| |] s']; try done. destruct H as (k & s2 & Z & G'' & o' & B1 & B2 & B3 & B4 & B5 & BL & ->).
        exists k, s2, Z, G'', (o ++ o'). rewrite say_say. split; [by econstructor|]. split; [done|]. split; [congruence|]. done.
      * pose proof (process_stop n ql (embed (Ctx Z (rv_of k) (say w o)) fs (flow_of (ending_of k)))) as H.
        assert (Hf : s_flow (embed (Ctx Z (rv_of k) (say w o)) fs (flow_of (ending_of k))) <> FNormal) by (by destruct k).
        destruct (H Hf) as [H1|H1]; rewrite H1; [done|]. exists k, s1, Z, G1, o. split; [by constructor|]. split; [done|]. split; [done|]. split; [by apply T2|]. done.
    + destruct (proj1 (no_tree M r) _ _ _ _ _ Hs eq_refl) as [-> Hd].
      pose proof (IH _ _ Hl HG scs w fs Fi) as H. destruct (process P (S n) ql _) as [[?|?|?| |] s']; try done.
      destruct H as (k & s2 & Z & G'' & o' & B1 & B2 & B3 & B4 & B5 & BL & ->). exists k, s2, Z, G'', o'. split; [|done]. change o' with ([] ++ o'). econstructor; [apply Hd|exact B1].
Qed.
Lemma step_block n : Gl n -> Gb (S n).
Proof.
  intros IH r b G G1 l q Hl scs w fs Fi. rewrite block_S. eapply good_step; [apply push_embed|].
  assert (F0 : fits_env ([] :: G) ([] :: scs)) by (constructor; [constructor|exact Fi]).
  eapply good_bind; [exact (IH _ _ _ _ _ _ Hl ltac:(done) ([] :: scs) w fs F0)|]. cbv beta. intros _ s' (k & s1 & Z & G'' & o & H1 & H2 & H3 & H4 & H5 & HL & ->).
  destruct (leave_scope G G'' scs s1 Fi H2 H3 H4) as [E1 E2]. destruct (tail_fits _ _ H2 H4) as (sc & r0 & ->).
  destruct Z as [|z Z]; [done|].
  exists k, r0, Z, o. cbn [tail] in *. rewrite <- E1. split; [by constructor|]. split; [done|]. split; [done|]. split; [|done].
  destruct k; try done; cbn [lands oscopes map] in *; by injection HL as _ ->.
Qed.
Lemma step_while n : Ge n -> Gd n -> Gw n -> Gw (S n).
Proof.
  intros IHe IHd IHw r bl G c c' b qb Hc Hb scs d w fs Fi Td. rewrite while_loop_S.
  eapply good_try. { pose proof (IHe _ _ _ _ Hc scs [] d anon w fs Fi (hidden_nil _) Td) as H. rewrite hide_nil in H. exact H. }
  cbv beta. intros ? s' (v & s1 & o & -> & H1 & H2 & H3 & ->). rewrite hide_nil. destruct v as [?|c0|?]; try done. rewrite is_true_bool. destruct c0; cbn [negb].
  2:{ exists Onward, s1, (oscopes s1), o. split; [by constructor|]. done. }
  eapply good_bind; [exact (IHd _ _ _ _ _ _ Hb s1 (say w o) fs H3)|]. cbv beta. intros _ s' (k & s2 & Z & o' & A1 & A2 & A3 & AL & ->).
  eapply good_step; [apply get_flow_embed|]. rewrite say_say.
  destruct k as [| | |v]; cbn [ending_of flow_of rv_of lands] in *; try subst Z.
  - eapply good_step; [apply set_flow_embed|].
    pose proof (IHw _ _ _ _ _ _ _ Hc Hb s2 (obj_of (VBool true)) (say w (o ++ o')) fs A2 (takes_obj (VBool true) TBool I)) as H.
    destruct (while_loop P n c' (stm qb) _ _) as [[?|?|?| |] s']; try done. destruct H as (k & s3 & Z & o'' & B1 & B2 & B3 & BL & ->).
    exists k, s3, Z, (o ++ o' ++ o''). rewrite say_say, <- app_assoc. split; [|done]. eapply rounds_while; [exact H2|exact A1|by left|exact B1].
  - exists Onward, s2, (oscopes s2), (o ++ o'). split; [|done]. by eapply rounds_break.
  - eapply good_step; [apply set_flow_embed|].
    pose proof (IHw _ _ _ _ _ _ _ Hc Hb s2 (obj_of (VBool true)) (say w (o ++ o')) fs A2 (takes_obj (VBool true) TBool I)) as H.
    destruct (while_loop P n c' (stm qb) _ _) as [[?|?|?| |] s']; try done. destruct H as (k & s3 & Z & o'' & B1 & B2 & B3 & BL & ->).
    exists k, s3, Z, (o ++ o' ++ o''). rewrite say_say, <- app_assoc. split; [|done]. eapply rounds_while; [exact H2|exact A1|by right|exact B1].
  - exists (Returned v), s2, Z, (o ++ o'). split; [by eapply rounds_return|]. done.
Qed.
Lemma only_onward r k : ends false r k -> stays false false k -> k = Onward.
Proof. intros He [S1 S2]. destruct k; try done. by destruct (S1 eq_refl v). Qed.
Lemma step_for n : Ge n -> Gd n -> Gf n -> Gf (S n).
Proof.
  intros IHe IHd IHf r bl G c c' b qb u qu Hc Hb Hu Sb Su HG scs d w fs Fi Td. rewrite for_loop_S.
  eapply good_try. { pose proof (IHe _ _ _ _ Hc scs [] d anon w fs Fi (hidden_nil _) Td) as H. rewrite hide_nil in H. exact H. }
  cbv beta. intros ? s' (v & s1 & o & -> & H1 & H2 & H3 & ->). rewrite hide_nil. destruct v as [?|c0|?]; try done. rewrite is_true_bool. destruct c0; cbn [negb].
  2:{ destruct (tail_fits _ _ H3 HG) as (sc & r0 & ->). exists Onward, (sc :: r0), (oscopes r0), o. split; [by constructor|]. done. }
  eapply good_bind; [exact (IHd _ _ _ _ _ _ Hb s1 (say w o) fs H3)|]. cbv beta. intros _ s' (k & s2 & Z & o' & A1 & A2 & A3 & AL & ->).
  eapply good_step; [apply get_flow_embed|]. rewrite say_say.
  destruct (proj1 (steady_ends M) _ _ _ _ _ A1 true false Sb) as [_ S2].
  assert (Hk : (k = Onward \/ k = Continued) \/ exists v, k = Returned v) by (destruct k; eauto; by destruct S2).
  destruct Hk as [Hk|[v ->]]; cycle 1.
  { cbn [ending_of flow_of rv_of]. exists (Returned v), s2, Z, (o ++ o'). split; [by eapply rounds_return|]. done. }
  assert (Z = oscopes s2) as -> by (by destruct Hk as [->| ->]).
  assert (HR : good (fun _ s' => exists k scs' Z o0, Run_Spec.rounds M (concat scs) c (Some u) b k (concat scs') o0 /\ fits_env G scs' /\ ends false r k /\ lands k (tail scs') Z /\
          s' = embed (Ctx Z (rv_of k) (say w o0)) fs (flow_of (ending_of k)))
    ((do_ set_flow FNormal; do_ visit P n (stm qu); for_loop P n (Some c') (stm qu) (stm qb) (obj_of (VBool true))) (embed (cx s2 anon (say w (o ++ o'))) fs (flow_of (ending_of k))))).
  { eapply good_step; [apply set_flow_embed|]. eapply good_bind; [exact (IHd _ _ _ _ _ _ Hu s2 (say w (o ++ o')) fs A2)|]. cbv beta.
    intros _ s' (k' & s3 & Z & o'' & B1 & B2 & B3 & BL & ->). pose proof (proj1 (steady_ends M) _ _ _ _ _ B1 false false Su) as S3.
    assert (k' = Onward) as -> by (by eapply only_onward). cbn [lands] in BL. subst Z. cbn [ending_of flow_of rv_of]. rewrite say_say.
    pose proof (IHf _ _ _ _ _ _ _ _ _ Hc Hb Hu Sb Su HG s3 (obj_of (VBool true)) (say w ((o ++ o') ++ o'')) fs B2 (takes_obj (VBool true) TBool I)) as H.
    destruct (for_loop P n (Some c') (stm qu) (stm qb) _ _) as [[?|?|?| |] s']; try done. destruct H as (k4 & s4 & Z & o4 & C1 & C2 & C3 & CL & ->).
    exists k4, s4, Z, (o ++ o' ++ o'' ++ o4). rewrite say_say, <- !app_assoc. split; [|done]. eapply rounds_for; [exact H2|exact A1|exact Hk|exact B1|exact C1]. }
  destruct Hk as [->| ->]; exact HR.
Qed.
Lemma step_proc n : Ges n -> Gc n -> Gp (S n).
Proof.
  intros IHs IHc G f args m es Hm Hr Hl scs w fs Fi. rewrite eval_S.
  pose proof (IHs _ _ _ _ Hl scs [] anon w fs Fi (hidden_nil _)) as H. rewrite hide_nil in H.
  eapply good_bind; [exact H|]. cbv beta. intros a s' (vs & s1 & o & -> & H1 & H2 & H3 & ->). rewrite hide_nil.
  pose proof (IHc f m vs anon (embed (cx s1 anon (say w o)) fs FNormal) Hm H1 eq_refl) as Hc.
  destruct (call P n f (map obj_of vs) anon _) as [[a|?|?| |] s']; try done. destruct Hc as (r & o' & H4 & -> & H5 & ->).
  exists s1, (o ++ o'). rewrite <- say_say. split; [by econstructor|]. done.
Qed.
Lemma step_visit n : Ge n -> Gp n -> Gd n -> Gw n -> Gf n -> Gb n -> Gd (S n).
Proof.
  intros IHe IHp IHd IHw IHf IHb r b G s q G' Hx scs w fs Fi.
  assert (E1 : forall G x t e, lx M G x t e -> forall scs w fs, fits_env G scs ->
    good (fun a s => exists v scs' o, a = obj_of v /\ has_type v t /\ value M (concat scs) x v (concat scs') o /\ fits_env G scs' /\
          s = embed (cx scs' anon (say w o)) fs FNormal)
    (eval P n e anon (embed (cx scs anon w) fs FNormal))).
  { clear -IHe. intros G x t e Hx scs w fs Fi. pose proof (IHe _ _ _ _ Hx scs [] anon anon w fs Fi (hidden_nil _) (takes_anon _)) as H. rewrite hide_nil in H.
    destruct (eval P n e anon _) as [[a|?|?| |] s]; try done. destruct H as (v & s1 & o & H). rewrite hide_nil in H. by exists v, s1, o. }
  destruct Hx as [b G|b G x t e He|b G f args m es Hm Hr Hl|b G x a t e Ht He|b G x op k op' a t u e Hop Ht He Ho|b G w0 x t G1 Hw Hi|b G w0 x t G1 e e' Hw Hi He|b G x t G1 e e' Hn He Hi|b G e e' He|G|G|b G e t e' He|b G Hr|b G e t e' Hr He|b G c a c' qa Hc Ha|b G c a s c' qa qs Hc Ha Hs|b G c s c' qs Hc Hs|b G G1 i c u s qi c' qu qs Hi Hc Hu Hs Si Su Ss|b G G1 l q Hl]; cbn [stm].
  - rewrite visit_S. exists Onward, scs, (oscopes scs), []. rewrite say_nil. split; [constructor|]. done.
  - rewrite visit_S. eapply good_try; [exact (E1 _ _ _ _ He scs w fs Fi)|]. cbv beta. intros ? s' (v & s1 & o & -> & H1 & H2 & H3 & ->).
    exists Onward, s1, (oscopes s1), o. split; [by econstructor|]. done.
  - rewrite visit_S. eapply good_try; [exact (IHp _ _ _ _ _ Hm Hr Hl scs w fs Fi)|]. cbv beta. intros ? s' (s1 & o & H1 & H2 & ->).
    exists Onward, s1, (oscopes s1), o. done.
  - rewrite visit_S. destruct (get_typed G scs [] x t anon w Fi (hidden_nil _) Ht) as (l0 & _ & _ & G1). rewrite hide_nil in G1.
    eapply good_step; [by apply lvalue_embed|]. eapply good_try; [exact (E1 _ _ _ _ He scs w fs Fi)|]. cbv beta. intros ? s' (v & s1 & o & -> & A3 & A1 & A2 & ->).
    destruct (get_typed G s1 [] x t anon (say w o) A2 (hidden_nil _) Ht) as (l1 & _ & T1 & G2). rewrite hide_nil in G2.
    eapply good_step; [by apply lvalue_embed|]. apply good_lift. right. eexists. split; [eapply assign_takes; [by eapply takes_obj|exact A3]|].
    destruct (set_typed G s1 [] x t v anon (say w o) A2 (hidden_nil _) Ht A3) as (S1 & S2 & S3). rewrite !hide_nil in S1.
    rewrite (store_embed _ _ _ _ _ _ S1). exists Onward, (supd s1 x v), (oscopes (supd s1 x v)), o. rewrite S2. split; [by constructor|]. done.
  - rewrite visit_S. destruct (get_typed G scs [] x t anon w Fi (hidden_nil _) Ht) as (l0 & L1 & L2 & G1). rewrite hide_nil in G1.
    eapply good_step; [by apply lvalue_embed|].
    assert (HB : good (fun a0 s => exists v0 scs' o0, a0 = obj_of v0 /\ has_type v0 t /\ fits_env G scs' /\ s = embed (cx scs' anon (say w o0)) fs FNormal /\
        (exists w1, value M (concat scs) a w1 (concat scs') o0 /\ combine op' l0 w1 v0))
      (eval P n (EBin op' (EVar x) e) anon (embed (cx scs anon w) fs FNormal))).
    { assert (Hk : (k = 0 \/ k = 1)%nat) by (destruct op; try discriminate Hop; injection Hop as <- _; auto).
      pose proof (IHe _ _ _ _ (lx_arith M G k op' [] (XName x) a t u t _ _ Hk Ho (lx_name M G x t Ht) He) scs [] anon anon w fs Fi (hidden_nil _) (takes_anon _)) as H.
      rewrite hide_nil in H. destruct (eval P n (EBin op' (EVar x) e) anon _) as [[?|?|?| |] s']; try done. destruct H as (v & s1 & o & -> & H1 & H2 & H3 & ->).
      rewrite hide_nil. exists v, s1, o. split; [done|]. split; [done|]. split; [done|]. split; [done|].
      inversion H2 as [| | | | | | | | | | |? ? ? ? ? ? ? ? ? ? V1 V2| |? ? ? ? ? ? ? ? ? ? V1 V2|? ? ? ? ? ? va vb ? ? ? o1 o2 V1 V2 C]; subst;
        try (destruct Hk as [->| ->]; discriminate Ho).
      inversion V1; subst. exists vb. split; [done|]. by assert (va = l0) as <- by congruence. }
    eapply good_try; [exact HB|]. cbv beta. intros ? s' (v & s1 & o & -> & A3 & A2 & -> & w1 & V1 & C1).
    destruct (get_typed G s1 [] x t anon (say w o) A2 (hidden_nil _) Ht) as (l1 & _ & T1 & G2). rewrite hide_nil in G2.
    eapply good_step; [by apply lvalue_embed|]. apply good_lift. right. eexists. split; [eapply assign_takes; [by eapply takes_obj|exact A3]|].
    destruct (set_typed G s1 [] x t v anon (say w o) A2 (hidden_nil _) Ht A3) as (S1 & S2 & S3). rewrite !hide_nil in S1.
    rewrite (store_embed _ _ _ _ _ _ S1). exists Onward, (supd s1 x v), (oscopes (supd s1 x v)), o. rewrite S2. split; [by econstructor|]. done.
  - rewrite visit_S. destruct (fits_introduce G scs x t (default t) G1 Fi Hi (default_type _)) as (s & r' & -> & F1 & N1).
    rewrite (named_default _ _ Hw). eapply good_step; [apply define_embed; by apply declare_ctx|].
    exists Onward, (((x, default t) :: s) :: r'), (oscopes (((x, default t) :: s) :: r')), []. rewrite say_nil. split; [|done]. exact (do_declare M _ (NamedType w0 x None None) t Hw).
  - rewrite visit_S. destruct (fits_introduce G scs x t (default t) G1 Fi Hi (default_type _)) as (s & r' & -> & F1 & N1).
    rewrite (named_default _ _ Hw). eapply good_step; [apply define_embed; by apply declare_ctx|].
    eapply good_try; [exact (E1 _ _ _ _ He _ w fs F1)|]. cbv beta. intros ? s' (v & s1 & o & -> & A3 & A1 & A2 & ->).
    apply good_lift. right. eexists. split; [eapply assign_takes; [|exact A3]; apply takes_obj, default_type|].
    destruct (set_typed G1 s1 [] x t v anon (say w o) A2 (hidden_nil _) (introduce_own _ _ _ _ Hi) A3) as (S1 & S2 & S3). rewrite !hide_nil in S1.
    rewrite (store_embed _ _ _ _ _ _ S1). exists Onward, (supd s1 x v), (oscopes (supd s1 x v)), o. rewrite S2. split; [|done].
    exact (do_initialise M _ (NamedType w0 x None None) t e v _ o Hw A1).
  - rewrite visit_S. destruct (fits_introduce G scs x t (default t) G1 Fi Hi (default_type _)) as (s & r' & -> & F1 & N1).
    rewrite obj_default. eapply good_step; [apply define_embed; by apply declare_ctx|].
    assert (Hh : hidden [(x, default t)] G). { intros y Hy. cbn [assoc]. case_bool_decide; [by subst y|done]. }
    pose proof (IHe _ _ _ _ He (s :: r') [(x, default t)] anon anon w fs Fi Hh (takes_anon _)) as H. rewrite hide_one in H.
    eapply good_try; [exact H|]. cbv beta. intros ? s' (v & s1 & o & -> & A3 & A1 & A2 & ->).
    destruct (fits_introduce G s1 x t v G1 A2 Hi A3) as (s2 & r2 & -> & F2 & N2). rewrite !hide_one.
    apply good_lift. right. eexists. split; [eapply assign_takes; [|exact A3]; apply takes_obj, default_type|].
    assert (S1 : ctx_set (cx (((x, default t) :: s2) :: r2) anon (say w o)) x (obj_of v) = Some (cx (((x, v) :: s2) :: r2) anon (say w o))).
    { unfold ctx_set, cx. cbn [x_env oscopes map oscope fst snd env_set sc_get sc_set x_ret x_world]. by rewrite str_eqb_refl. }
    rewrite (store_embed _ _ _ _ _ _ S1). exists Onward, (((x, v) :: s2) :: r2), (oscopes (((x, v) :: s2) :: r2)), o. split; [|done]. by constructor.
  - rewrite visit_S. eapply good_try; [exact (E1 _ _ _ _ He scs w fs Fi)|]. cbv beta. intros ? s' (v & s1 & o & -> & H1 & H2 & H3 & ->).
    destruct v as [?|v|?]; try done. rewrite is_true_bool. destruct v; [|done]. exists Onward, s1, (oscopes s1), o. split; [by constructor|]. done.
  - rewrite visit_S. exists Broken, scs, (oscopes scs), []. rewrite say_nil. split; [constructor|]. done.
  - rewrite visit_S. exists Continued, scs, (oscopes scs), []. rewrite say_nil. split; [constructor|]. done.
  - rewrite visit_S. eapply good_try; [exact (E1 _ _ _ _ He scs w fs Fi)|]. cbv beta. intros ? s' (v & s1 & o & -> & H1 & H2 & H3 & ->).
    rewrite show_obj. exists Onward, s1, (oscopes s1), (o ++ [show v]). rewrite <- say_say. split; [by econstructor|]. done.
  - rewrite visit_S. subst r. exists (Returned None), scs, (oscopes scs), []. rewrite say_nil. split; [constructor|]. done.
  - rewrite visit_S. subst r. eapply good_try; [exact (E1 _ _ _ _ He scs w fs Fi)|]. cbv beta. intros ? s' (v & s1 & o & -> & H1 & H2 & H3 & ->).
    eapply good_step; [apply get_ret_embed|]. apply good_lift. right. eexists. split; [apply (assign_takes P _ v t); [apply takes_anon|exact H1]|].
    exists (Returned (Some v)), s1, (oscopes s1), o. split; [by econstructor|]. done.
  - rewrite visit_S. eapply good_try; [exact (E1 _ _ _ _ Hc scs w fs Fi)|]. cbv beta. intros ? s' (v & s1 & o & -> & H1 & H2 & H3 & ->).
    destruct v as [?|v|?]; try done. rewrite is_true_bool. destruct v.
    + eapply good_mono; [exact (IHd _ _ _ _ _ _ Ha s1 (say w o) fs H3)|]. cbv beta. intros _ s' (k & s2 & Z & o' & A1 & A2 & A3 & AL & ->).
      exists k, s2, Z, (o ++ o'). rewrite say_say. split; [by econstructor|]. done.
    + eapply good_mono; [exact (IHd _ false _ _ _ _ (low_empty M r false G) s1 (say w o) fs H3)|]. cbv beta. intros _ s' (k & s2 & Z & o' & A1 & A2 & A3 & AL & ->).
      inversion A1; subst. rewrite say_nil. exists Onward, s2, Z, o. split; [|done]. match goal with H : concat s1 = concat s2 |- _ => rewrite <- H end. by constructor.
  - rewrite visit_S. eapply good_try; [exact (E1 _ _ _ _ Hc scs w fs Fi)|]. cbv beta. intros ? s' (v & s1 & o & -> & H1 & H2 & H3 & ->).
    destruct v as [?|v|?]; try done. rewrite is_true_bool. destruct v.
    + eapply good_mono; [exact (IHd _ _ _ _ _ _ Ha s1 (say w o) fs H3)|]. cbv beta. intros _ s' (k & s2 & Z & o' & A1 & A2 & A3 & AL & ->).
      exists k, s2, Z, (o ++ o'). rewrite say_say. split; [by econstructor|]. done.
    + eapply good_mono; [exact (IHd _ _ _ _ _ _ Hs s1 (say w o) fs H3)|]. cbv beta. intros _ s' (k & s2 & Z & o' & A1 & A2 & A3 & AL & ->).
      exists k, s2, Z, (o ++ o'). rewrite say_say. split; [by eapply do_else|]. done.
  - rewrite visit_S. eapply good_mono; [exact (IHw _ _ _ _ _ _ _ Hc Hs scs anon w fs Fi (takes_anon _))|]. cbv beta. intros _ s' (k & s1 & Z & o & A1 & A2 & A3 & AL & ->).
    exists k, s1, Z, o. split; [by constructor|]. split; [done|]. split; [by destruct k|]. done.
  - rewrite visit_S. eapply good_step; [apply push_embed|].
    assert (F0 : fits_env ([] :: G) ([] :: scs)) by (constructor; [constructor|exact Fi]).
    eapply good_bind; [exact (IHd _ _ _ _ _ _ Hi ([] :: scs) w fs F0)|]. cbv beta. intros _ s' (k & s1 & Z & o & A1 & A2 & A3 & AL & ->).
    assert (k = Onward) as -> by (eapply only_onward; [done|]; by apply (proj1 (steady_ends M) _ _ _ _ _ A1)). cbn [lands] in AL. subst Z. cbn [ending_of flow_of rv_of].
    destruct (low_tail _ _ _ _ _ _ _ Hi) as [T1 T2].
    eapply good_mono; [exact (IHf _ _ _ _ _ _ _ _ _ Hc Hs Hu Ss Su (T2 ltac:(done)) s1 anon (say w o) fs A2 (takes_anon _))|]. cbv beta. intros _ s' (k & s2 & Z & o' & B1 & B2 & B3 & BL & ->).
    destruct (leave_scope G G1 scs s2 Fi B2 T1 (T2 ltac:(done))) as [L1 L2]. 
    assert (D : does M (concat scs) (YFor (Some i) (Some c) (Some u) s) k (leave (concat scs) (concat s2)) (o ++ o')) by (by econstructor).
    rewrite L1 in D. exists k, (tail s2), Z, (o ++ o'). rewrite say_say. split; [done|]. split; [done|]. split; [by destruct k|]. done.
  - destruct q as [|q0 q]; cbn [blk].
    + rewrite visit_S. exists Onward, scs, (oscopes scs), []. rewrite say_nil. split; [|done].
      apply (proj1 (no_tree M r) b G _ None G); [|done]. exact (low_block M r b G G1 l [] Hl).
    + rewrite visit_S. exact (IHb _ _ _ _ _ _ Hl scs w fs Fi).
Qed.
Lemma back_all n : Ge n /\ Ges n /\ Gc n /\ Gp n /\ Gx n /\ Gd n /\ Gl n /\ Gw n /\ Gf n /\ Gb n.
Proof.
  induction n as [|n (H1 & H2 & H3 & H4 & H5 & H6 & H7 & H8 & H9 & H10)].
  - repeat split; repeat intro; done.
  - split; [by apply step_expr|]. split; [by apply step_exprs|]. split; [by apply step_call|]. split; [by apply step_proc|]. split; [by apply step_execute|].
    split; [by apply step_visit|]. split; [by apply step_list|]. split; [by apply step_while|]. split; [by apply step_for|]. by apply step_block.
Qed.
End Back.
