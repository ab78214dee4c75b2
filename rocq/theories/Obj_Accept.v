(** The generator accepts exactly the well typed programs of the fragment. *)
From Verif Require Import Base Obj_Model Obj_Spec Obj_Proofs.

Scheme wt_mut := Minimality for wt Sort Prop with wts_mut := Minimality for wts Sort Prop.
Combined Scheme wt_wts from wt_mut, wts_mut.
Scheme wst_mut := Minimality for wst Sort Prop with wsts_mut := Minimality for wsts Sort Prop with wks_mut := Minimality for wks Sort Prop.
Combined Scheme wst_wsts from wst_mut, wsts_mut, wks_mut.

(** Induction over expressions and statements with lists in them. *)
Section Ind.
Variable Q : expr -> Prop.
Hypothesis H1 : forall z, Q (XInt z).
Hypothesis H2 : Q XNull.
Hypothesis H3 : forall p, Q (XPath p).
Hypothesis H4 : forall p l, Forall Q l -> Q (XCall p l).
Hypothesis H5 : forall c l, Forall Q l -> Q (XNew c l).
Hypothesis H6 : forall a b, Q a -> Q b -> Q (XAdd a b).
Hypothesis H7 : forall a b, Q a -> Q b -> Q (XLess a b).
Hypothesis H8 : forall a p, Q a -> Q (XDot a p).
Hypothesis H9 : forall a p l, Q a -> Forall Q l -> Q (XDotCall a p l).
Hypothesis H10 : forall c a, Q a -> Q (XCast c a).
Fixpoint expr_all (e : expr) : Q e :=
  let all := fix all l : Forall Q l := match l with [] => Forall_nil_2 Q | a :: l => Forall_cons_2 Q a l (expr_all a) (all l) end in
  match e with
  | XInt z => H1 z
  | XNull => H2
  | XPath p => H3 p
  | XCall p l => H4 p l (all l)
  | XNew c l => H5 c l (all l)
  | XAdd a b => H6 a b (expr_all a) (expr_all b)
  | XLess a b => H7 a b (expr_all a) (expr_all b)
  | XDot a p => H8 a p (expr_all a)
  | XDotCall a p l => H9 a p l (expr_all a) (all l)
  | XCast c a => H10 c a (expr_all a)
  end.
End Ind.
Section Ind2.
Variable Q : stmt -> Prop.
Hypothesis H1 : forall t x e, Q (SDecl t x e).
Hypothesis H2 : forall p e, Q (SAssign p e).
Hypothesis H3 : forall e, Q (SPrint e).
Hypothesis H4 : forall e, Q (SExpr e).
Hypothesis H5 : forall o, Q (SReturn o).
Hypothesis H6 : forall e a b, Q a -> Q b -> Q (SIf e a b).
Hypothesis H7 : forall l, Forall Q l -> Q (SBlock l).
Hypothesis H8 : forall e l, Forall Q l -> Q (SWhile e l).
Hypothesis H9 : Q SBreak.
Hypothesis H10 : Q SContinue.
Hypothesis H11 : Q SSkip.
Hypothesis H12 : forall e, Q (SThrow e).
Hypothesis H13 : forall a ks, Q a -> Forall (fun k => Q (snd k)) ks -> Q (STry a ks).
Fixpoint stmt_all (s : stmt) : Q s :=
  let all := fix all l : Forall Q l := match l with [] => Forall_nil_2 Q | a :: l => Forall_cons_2 Q a l (stmt_all a) (all l) end in
  match s with
  | SDecl t x e => H1 t x e
  | SAssign p e => H2 p e
  | SPrint e => H3 e
  | SExpr e => H4 e
  | SReturn o => H5 o
  | SIf e a b => H6 e a b (stmt_all a) (stmt_all b)
  | SBlock l => H7 l (all l)
  | SWhile e l => H8 e l (all l)
  | SBreak => H9
  | SContinue => H10
  | SThrow e => H12 e
  | STry a ks => H13 a ks (stmt_all a)
      ((fix go ks : Forall (fun k : str * str * stmt => Q (snd k)) ks :=
          match ks with [] => Forall_nil_2 _ | k :: ks => Forall_cons_2 _ k ks (stmt_all (snd k)) (go ks) end) ks)
  | SSkip => H11
  end.
End Ind2.

(** ** Break, continue and return *)
Fixpoint controls (allow : bool) (l : list stmt) (g : mark) : option mark :=
  match l with [] => Some g | s :: l => match control allow s g with Some g => controls allow l g | None => None end end.
Lemma control_block allow l g : control allow (SBlock l) g = controls allow l MNormal.
Proof. reflexivity. Qed.
Lemma control_while allow e l g : control allow (SWhile e l) g = controls true l MNormal.
Proof. reflexivity. Qed.
Lemma control_try allow a ks g : control allow (STry a ks) g = controls allow (a :: map snd ks) g.
Proof.
  cbn [control controls]. destruct (control allow a g) as [g1|]; [|done]. revert g1. induction ks as [|k ks IH]; intros g1; [done|].
  cbn [map controls]. by destruct (control allow (snd k) g1).
Qed.
Definition last_returns (l : list stmt) : Prop := exists l1 s l2, l = l1 ++ s :: l2 /\ returns s /\ Forall silent l2.
Lemma silent_not_returns s : silent s -> ~ returns s.
Proof.
  induction s as [t x e|p e|e|e|o|e a b IHa IHb|l IH|e l IH| | | |e|a ks IHa IH] using stmt_all; intros H H'; inversion H; subst; inversion H'; subst; auto.
  - by apply IHb.
  - by apply IHa.
  - assert (Forall (fun s => silent s -> ~ returns s) (a :: map snd ks)) as Hall. { constructor; [done|]. by apply Forall_fmap. }
    assert (s ∈ a :: map snd ks) as Hin. { rewrite H3. apply elem_of_app. right. by left. }
    rewrite Forall_forall in Hall. apply (Hall s Hin); [|done]. rewrite Forall_forall in H1. by apply H1.
Qed.
Lemma silent_not_last l : Forall silent l -> ~ last_returns l.
Proof. intros H (l1 & s & l2 & -> & Hs & _). apply Forall_app in H as [_ H]. apply Forall_cons in H as [H _]. by eapply silent_not_returns. Qed.
Definition judged (bad : Prop) (quiet : Prop) (ret : Prop) (g : mark) (r : option mark) : Prop :=
  match r with
  | None => bad
  | Some g' => ~ bad /\ ((quiet /\ g' = g) \/ (~ quiet /\ (g' = MReturn <-> ret)))
  end.
Lemma controls_judged l : Forall (fun s => forall allow g, judged (allow = false /\ stray s) (silent s) (returns s) g (control allow s g)) l ->
  forall allow g, judged (allow = false /\ exists s, In s l /\ stray s) (Forall silent l) (last_returns l) g (controls allow l g).
Proof.
  induction 1 as [|s l Hs _ IH]; intros allow g.
  { cbn. split; [by intros (_ & s & ? & _)|]. left. by split. }
  cbn [controls]. specialize (Hs allow g). destruct (control allow s g) as [g1|].
  2: { destruct Hs as [? ?]. split; [done|]. exists s. split; [by left|done]. }
  specialize (IH allow g1). destruct Hs as [Hs1 Hs2]. destruct (controls allow l g1) as [g2|].
  2: { destruct IH as (? & x & ? & ?). split; [done|]. exists x. split; [by right|done]. }
  destruct IH as [Hl1 Hl2]. split.
  { intros (? & x & [<- |Hx] & Hst); [by apply Hs1|]. apply Hl1. split; [done|]. by exists x. }
  destruct Hl2 as [[Hq ->]|[Hq Hr]].
  - destruct Hs2 as [[Hsq ->]|[Hsq Hsr]].
    + left. split; [by constructor|done].
    + right. split; [by intros [? _]%Forall_cons|]. rewrite Hsr. split.
      * intros Hs. by exists [], s, l.
      * intros (l1 & x & l2 & Heq & Hx & Hx2). destruct l1 as [|y l1]; cbn in Heq; injection Heq as -> ->; [done|].
        exfalso. apply (silent_not_last _ Hq). by exists l1, x, l2.
  - right. split; [by intros [_ ?]%Forall_cons|]. rewrite Hr. split.
    + intros (l1 & x & l2 & -> & Hx & Hx2). by exists (s :: l1), x, l2.
    + intros (l1 & x & l2 & Heq & Hx & Hx2). destruct l1 as [|y l1]; cbn in Heq; injection Heq as -> ->; [done|]. by exists l1, x, l2.
Qed.
Lemma control_judged s : forall allow g, judged (allow = false /\ stray s) (silent s) (returns s) g (control allow s g).
Proof.
  induction s as [t x e|p e|e|e|o|e a b IHa IHb|l IH|e l IH| | | |e|a ks IHa IH] using stmt_all; intros allow g.
  1-4: cbn; split; [intros [_ H]; inversion H|left; split; [constructor|done]].
  - cbn. split; [intros [_ H]; inversion H|]. right. split; [intros H; inversion H|]. split; [constructor|done].
  - cbn [control]. specialize (IHa allow g). destruct (control allow a g) as [g1|].
    2: { destruct IHa. split; [done|by constructor]. }
    specialize (IHb allow g1). destruct (control allow b g1) as [g2|].
    2: { destruct IHb. split; [done|by apply stray_else]. }
    destruct IHa as [Ha1 Ha2], IHb as [Hb1 Hb2]. split.
    { intros [? Hst]. inversion Hst; subst; [by apply Ha1|by apply Hb1]. }
    destruct Hb2 as [[Hq ->]|[Hq Hr]].
    + destruct Ha2 as [[Haq ->]|[Haq Har]]; [left; split; [by constructor|done]|]. right. split; [intros H; inversion H; subst; done|]. rewrite Har. split.
      * intros ?. by apply returns_then.
      * intros H. inversion H; subst; [|done]. exfalso. by eapply silent_not_returns.
    + right. split; [intros H; inversion H; subst; done|]. rewrite Hr. split; [intros ?; by apply returns_else|]. intros H. by inversion H; subst.
  - rewrite control_block. pose proof (controls_judged l IH allow MNormal) as H. destruct (controls allow l MNormal) as [g1|].
    + destruct H as [H1 H2]. split.
      { intros [? Hst]. inversion Hst as [| | | |l' s0 ? ?|]; subst. apply H1. split; [done|]. by exists s0. }
      right. split; [intros H; inversion H|]. assert (g1 = MReturn <-> last_returns l) as ->.
      { destruct H2 as [[Hq ->]|[_ H2]]; [|done]. split; [done|]. intros Hx. by apply silent_not_last in Hx. }
      split; [by intros (l1 & x & l2 & -> & ? & ?); constructor|]. intros Hx. inversion Hx as [| | |l1 x l2 ? ?| | |]; subst. by exists l1, x, l2.
    + destruct H as (-> & x & ? & ?). split; [done|by eapply stray_block].
  - rewrite control_while. pose proof (controls_judged l IH true MNormal) as H. destruct (controls true l MNormal) as [g1|].
    + destruct H as [H1 H2]. split; [intros [_ Hst]; inversion Hst|].
      right. split; [intros H; inversion H|]. assert (g1 = MReturn <-> last_returns l) as ->.
      { destruct H2 as [[Hq ->]|[_ H2]]; [|done]. split; [done|]. intros Hx. by apply silent_not_last in Hx. }
      split; [by intros (l1 & x & l2 & -> & ? & ?); constructor|]. intros Hx. inversion Hx as [| | | |e' l1 x l2 ? ?| |]; subst. by exists l1, x, l2.
    + by destruct H.
  - cbn. destruct allow; cbn; [|split; [done|constructor]]. split; [by intros [? _]|]. right. split; [intros H; inversion H|]. split; [done|]. intros H; inversion H.
  - cbn. destruct allow; cbn; [|split; [done|constructor]]. split; [by intros [? _]|]. right. split; [intros H; inversion H|]. split; [done|]. intros H; inversion H.
  - cbn. split; [intros [_ H]; inversion H|left; split; [constructor|done]].
  - cbn. split; [intros [_ H]; inversion H|]. right. split; [intros H; inversion H|]. split; [constructor|done].
  - rewrite control_try. assert (Forall (fun s => forall allow g, judged (allow = false /\ stray s) (silent s) (returns s) g (control allow s g)) (a :: map snd ks)) as Hall.
    { constructor; [done|]. by apply Forall_fmap. }
    pose proof (controls_judged _ Hall allow g) as H. destruct (controls allow (a :: map snd ks) g) as [g1|].
    + destruct H as [H1 H2]. split.
      { intros [? Hst]. inversion Hst as [| | | | |a' ks' s0 ? ?]; subst. apply H1. split; [done|]. by exists s0. }
      destruct H2 as [[Hq ->]|[Hq Hr]]; [left; split; [by constructor|done]|]. right. split; [intros H; inversion H; subst; done|]. rewrite Hr. split.
      * intros (l1 & x & l2 & Heq & ? & ?). by eapply returns_try.
      * intros Hx. inversion Hx as [| | | | | |a' ks' l1 x l2 Heq ? ?]; subst. by exists l1, x, l2.
    + destruct H as (-> & x & ? & ?). split; [done|by eapply stray_try].
Qed.
Lemma controlled_iff q : controlled q = true <-> ~ stray (SBlock (m_body q)) /\ (m_ret q <> None -> returns (SBlock (m_body q))).
Proof.
  unfold controlled. pose proof (control_judged (SBlock (m_body q)) false MNormal) as H. destruct (control false (SBlock (m_body q)) MNormal) as [g|].
  - destruct H as [H1 H2]. assert (~ stray (SBlock (m_body q))) as Hn by (intros ?; by apply H1).
    destruct H2 as [[Hq _]|[_ H2]]; [inversion Hq|].
    destruct g; [| |split; [intros _; split; [done|intros _; by apply H2]|done]].
    all: rewrite bool_decide_eq_true; split; [intros ->; done|]; intros [_ Hr]; destruct (m_ret q); [|done]; by apply H2 in Hr; [|done].
  - split; [done|]. by intros [Hn _]; destruct Hn, H.
Qed.

Definition need (l : level) : nat := match l with Own => 1 | Heir => 2 | Other => 3 end.
Definition as_res (r : named) : sres := match r with NValue t => RVal t | NMethod c m => RMeth c m end.
Definition as_named (r : sres) : named := match r with RVal t => NValue t | RMeth c m => NMethod c m end.
Lemma as_res_named r : as_res (as_named r) = r.
Proof. by destruct r. Qed.
Lemma as_named_res r : as_named (as_res r) = r.
Proof. by destruct r. Qed.
Lemma seen_may l v : seen (need l) v = true <-> may l v.
Proof. unfold seen. destruct l, v; cbn; split; done. Qed.

Section Accept.
Variable P : prog.
Hypothesis Hsound : sound P.
Notation P1 := (Prog (map complete (p_classes P)) (p_funcs P)).

Lemma typed_resolve l c n r : typed_member P l c n r ->
  bp_resolve P1 (depth P1) c n (need l) = Some (match r with NValue t => YVal t | NMethod _ _ => YMeth end).
Proof.
  intros [c' e k f Hi Hk Hf Hm|c' e k q Hi Hk Hq Hm|c' k b Hk Hb]; clear c n r.
  - destruct (bp_found P Hsound c' e k (f_name f) (need l) Hi Hk) as [s Hs]; [left; exists f; split; [done|]; split; [done|by apply seen_may]|].
    pose proof (bp_sound P _ _ _ _ _ Hs) as Hb. cbv zeta in Hs. rewrite Hs. f_equal. destruct s as [t|].
    + destruct Hb as [(e2 & k2 & f2 & Hi2 & Hk2 & Hf2 & Hn2 & <- & _)|(Hx & _)]; [|by destruct (field_name_fine P Hsound e k f Hk Hf)].
      assert (e = e2) as <- by (by eapply (field_once P Hsound c' e k f e2 k2 f2)).
      pose proof (class_unique P Hsound _ _ _ Hk Hk2); subst k2. pose proof (sound_of P Hsound _ _ Hk) as (Hd & _).
      pose proof (own_field_in k _ f Hf eq_refl Hd 1 (seen_one _)) as E1. pose proof (own_field_in k _ f2 Hf2 Hn2 Hd 1 (seen_one _)) as E2. congruence.
    + destruct Hb as (e2 & k2 & q & Hi2 & Hk2 & Hq & Hn & _). by destruct (field_not_method P Hsound c' e k f e2 k2 q Hi Hk Hf Hi2 Hk2 Hq).
  - destruct (bp_found P Hsound c' e k (m_name q) (need l) Hi Hk) as [s Hs]; [right; exists q; split; [done|]; split; [done|by apply seen_may]|].
    pose proof (bp_sound P _ _ _ _ _ Hs) as Hb. cbv zeta in Hs. rewrite Hs. f_equal. destruct s as [t|]; [|done].
    destruct Hb as [(e2 & k2 & f2 & Hi2 & Hk2 & Hf2 & Hn2 & _)|(Hx & _)].
    + exfalso. by apply (field_not_method P Hsound c' e2 k2 f2 e k q Hi2 Hk2 Hf2 Hi Hk Hq).
    + exfalso. apply (base_no_member P Hsound c'). right. by exists e, k, q.
  - destruct (depth P1) as [|f] eqn:Hd; [done|]. cbn [bp_resolve]. pose proof (class_of_complete P Hsound _ _ Hk) as Hc. cbv zeta in Hc. rewrite Hc.
    rewrite own_field_none. 2:{ intros g Hg. rewrite complete_fields in Hg. apply (field_name_fine P Hsound _ k g Hk Hg). }
    rewrite str_eqb_refl, complete_base, Hb. done.
Qed.
Lemma resolve_typed l c n s : bp_resolve P1 (depth P1) c n (need l) = Some s -> typed_member P l c n (match s with YVal t => NValue t | YMeth => NMethod (Some c) n end).
Proof.
  intros Hs. pose proof (bp_sound P _ _ _ _ _ Hs) as Hb. destruct s as [t|].
  - destruct Hb as [(e & k & f & Hi & Hk & Hf & <- & <- & Hv)|(-> & k & b & Hk & Hb & ->)]; [|by eapply tm_base].
    eapply tm_field; try done. by apply seen_may.
  - destruct Hb as (e & k & q & Hi & Hk & Hq & <- & Hv). eapply tm_method; try done. by apply seen_may.
Qed.
Lemma this_not_typed l c r : ~ typed_member P l c w_this r.
Proof.
  intros H. apply typed_resolve in H. apply (bp_sound P) in H. destruct r as [t|o m].
  - destruct H as [(e & k & f & Hi & Hk & Hf & Hn & _)|(H & _)]; [|done]. by destruct (field_name_fine P Hsound e k f Hk Hf).
  - apply (this_no_member P Hsound c). right. destruct H as (e & k & q & ? & ? & ? & ? & _). by exists e, k, q.
Qed.

Lemma need_on (D : option str) l n d : n <> w_this ->
  (if str_eqb n w_base then 2 else if str_eqb n w_this then 1 else if bool_decide (D = Some d) then 1 else need l) =
  need (if bool_decide (n = w_base) then Heir else if bool_decide (D = Some d) then Own else l).
Proof.
  intros Hn. apply str_eqb_false in Hn. rewrite Hn. destruct (str_eqb n w_base) eqn:Hb.
  - apply str_eqb_true in Hb. by rewrite (bool_decide_eq_true_2 (n = w_base)).
  - apply str_eqb_false in Hb. rewrite (bool_decide_eq_false_2 (n = w_base)) by done. by destruct (bool_decide _).
Qed.
Lemma rest_iff D l c p s : rest P1 D c (need l) p = Ok (Found s) <-> chained P D l c p (as_named s).
Proof.
  split.
  - revert l c. induction p as [|n p IH]; intros l c; cbn [rest]; [done|].
    destruct (bp_resolve P1 (depth P1) c n (need l)) as [y|] eqn:Hb; [|done]. apply resolve_typed in Hb. destruct y as [t|].
    + destruct p as [|n2 p]; [intros [= <-]; by apply chained_last|]. destruct t as [| |d]; try done.
      rewrite need_on by (intros ->; by apply this_not_typed in Hb). intros H%IH. by eapply chained_on.
    + destruct p; [|done]. intros [= <-]. by apply chained_last.
  - remember (as_named s) as r eqn:Hr. intros H. apply (f_equal as_res) in Hr. rewrite as_res_named in Hr. subst s.
    induction H as [l c n r Ht|l c n d p r Ht Hc IH]; cbn [rest].
    + rewrite (typed_resolve _ _ _ _ Ht). destruct Ht; done.
    + rewrite (typed_resolve _ _ _ _ Ht). destruct p as [|n2 p]; [inversion Hc|].
      rewrite need_on by (intros ->; by apply this_not_typed in Ht). done.
Qed.

Lemma lost_short D c i p q : rest P1 D c i p = Ok (Lost q) -> length q <= length p.
Proof.
  revert c i. induction p as [|n p IH]; intros c i; cbn [rest]; [by intros [= <-]|].
  destruct (bp_resolve P1 (depth P1) c n i) as [[t|]|]; [| by destruct p|by intros [= <-]].
  destruct p as [|n2 p]; [done|]. destruct t as [| |d]; try done. intros H%IH. cbn in *. lia.
Qed.
(** Locals of the generator and of the rules. *)
Definition env_ok (D : option str) (G : senv) (T : tenv) : Prop :=
  Forall2 (fun b m => forall x, get x b = m x) G T /\ forall x t, slook G x = Some t -> fine_local P D x.
Lemma look_eq D G T x : env_ok D G T -> slook G x = tlook T x.
Proof.
  intros [H _]. induction H as [|b m G T Hb _ IH]; [done|]. cbn [slook tlook]. rewrite Hb. by rewrite IH.
Qed.
Lemma rest_none D d x r : fine_local P (Some d) x -> rest P1 D d 1 (x :: r) = Ok (Lost (x :: r)).
Proof.
  intros (H1 & H2 & H3). cbn [rest]. destruct (bp_resolve P1 (depth P1) d x 1) as [s|] eqn:Hb; [|done]. exfalso. apply (bp_sound P) in Hb.
  apply (H3 d eq_refl). destruct s as [t|].
  - destruct Hb as [(e & k & f & ? & ? & ? & ? & _)|[? _]]; [|done]. left. by exists e, k, f.
  - destruct Hb as (e & k & q & ? & ? & ? & ? & _). right. by exists e, k, q.
Qed.
Lemma rest_this D d r : rest P1 D d 1 (w_this :: r) = Ok (Lost (w_this :: r)).
Proof.
  cbn [rest]. destruct (bp_resolve P1 (depth P1) d w_this 1) as [s|] eqn:Hb; [|done]. change 1 with (need Own) in Hb. apply resolve_typed in Hb.
  by apply this_not_typed in Hb.
Qed.
Lemma own_need (D : option str) c : (if bool_decide (D = Some c) then 1 else 3) = need (if bool_decide (D = Some c) then Own else Other).
Proof. by destruct (bool_decide _). Qed.
Lemma name_iff D G T p s : env_ok D G T -> fine_known P D p ->
  (exists p', name_of P1 D G p = Ok (p', s)) <-> stands P D T p (as_named s).
Proof.
  intros HE Hkn. split.
  - intros [p' H]. unfold name_of in H.
    assert ((exists d, D = Some d /\ rest P1 D d 1 p = Ok (Found s)) \/
            ((forall d, D = Some d -> rest P1 D d 1 p = Ok (Lost p)) /\ plain P1 D G p = Ok s)) as [(d & Hd & Hr)|[Hl Hp]].
    { destruct D as [d|].
      - destruct (rest P1 (Some d) d 1 p) as [[s'|q]| | |] eqn:Hr; cbn [rbind] in H; try done.
        + injection H as _ <-. left. by exists d.
        + right. assert (q = p) as ->. { destruct p as [|x p]; [cbn in Hr; by injection Hr as <-|]. by eapply (lost_whole P Hsound) in Hr. }
          destruct (plain P1 (Some d) G p) eqn:Hp; cbn [rbind] in H; try done. injection H as _ <-. split; [|done]. by intros d' [= <-].
      - right. split; [done|]. cbn [rbind] in H. destruct (plain P1 None G p) eqn:Hp; cbn [rbind] in H; try done. by injection H as _ <-. }
    + change 1 with (need Own) in Hr. apply rest_iff in Hr. by eapply stands_own.
    + destruct p as [|x r]; [done|]. cbn [plain] in Hp. unfold head in Hp.
      destruct (slook G x) as [t|] eqn:Hx.
      * pose proof Hx as Ht. rewrite (look_eq _ _ _ _ HE) in Ht. pose proof (proj2 HE _ _ Hx) as (Hn1 & Hn2 & _).
        destruct r as [|n r]; [injection Hp as <-; by apply stands_local|]. destruct t as [| |c]; try done.
        apply str_eqb_false in Hn1, Hn2. rewrite Hn1, Hn2, own_need in Hp.
        destruct (rest P1 D c _ (n :: r)) as [[s'|]| | |] eqn:Hr; cbn [rbind] in Hp; try done. injection Hp as <-.
        eapply stands_local_chain; [done|]. by apply rest_iff.
      * assert (tlook T x = None) as Ht by (by rewrite <- (look_eq _ _ _ _ HE)).
        assert (existsb (fun q => str_eqb (m_name q) x) (p_funcs P) = true -> exists q, In q (p_funcs P) /\ m_name q = x) as Hfu.
        { intros (q & Hq & Hn%str_eqb_true)%existsb_exists. by exists q. }
        destruct D as [d|].
        -- specialize (Hl d eq_refl). destruct (str_eqb x w_this) eqn:Hth.
           ++ apply str_eqb_true in Hth as ->. destruct r as [|n r]; [injection Hp as <-; by eapply stands_this|].
              replace (str_eqb w_this w_base) with false in Hp by done.
              destruct (rest P1 (Some d) d 1 (n :: r)) as [[s'|]| | |] eqn:Hr; cbn [rbind] in Hp; try done. injection Hp as <-.
              change 1 with (need Own) in Hr. apply rest_iff in Hr. by eapply stands_this_chain.
           ++ cbn [rest] in Hl. destruct (bp_resolve P1 (depth P1) d x 1) as [y|] eqn:Hb.
              { exfalso. destruct r as [|n r]; [by destruct y|]. destruct y as [[| |c]|]; try done.
                apply lost_short in Hl. cbn in Hl. lia. }
              cbn [p_funcs] in Hp. destruct (existsb _ _) eqn:Hex; [|done]. destruct r; [|done]. injection Hp as <-.
              destruct (Hfu eq_refl) as (q & Hq & Hn). eapply stands_function; try done. intros d' [= <-] Hm.
              destruct (member_found P Hsound _ _ Hm) as [s Hs]. cbv zeta in Hs. congruence.
        -- cbn [p_funcs] in Hp. destruct (existsb _ _) eqn:Hex; [|done]. destruct r; [|done]. injection Hp as <-.
           destruct (Hfu eq_refl) as (q & Hq & Hn). by eapply stands_function.
  - intros H. remember (as_named s) as r eqn:Hr. apply (f_equal as_res) in Hr. rewrite as_res_named in Hr. subst s. unfold name_of.
    destruct H as [d p r -> Hc|d ->|d p r -> Hc|x t Hx|x c p r Hx Hc|m q Hx Hm Hq Hn].
    + rewrite <- (as_named_res r) in Hc. change 1 with (need Own). apply rest_iff in Hc. rewrite Hc. cbn [rbind]. by eexists.
    + rewrite rest_this. cbn [rbind plain]. unfold head. destruct (slook G w_this) eqn:Hs; [by apply (proj2 HE) in Hs as [? _]|]. rewrite str_eqb_refl. by eexists.
    + rewrite rest_this. cbn [rbind plain]. unfold head. destruct (slook G w_this) eqn:Hs; [by apply (proj2 HE) in Hs as [? _]|]. rewrite str_eqb_refl.
      replace (str_eqb w_this w_base) with false by done. rewrite <- (as_named_res r) in Hc. change 1 with (need Own). apply rest_iff in Hc.
      destruct p as [|n p]; [inversion Hc|]. rewrite Hc. by eexists.
    + rewrite <- (look_eq _ _ _ _ HE) in Hx. pose proof (proj2 HE _ _ Hx) as Hl.
      assert ((let! a := match D with Some c => rest P1 D c 1 [x] | None => Ok (Lost [x]) end in match a with Found s => Ok (w_this :: [x], s) | Lost q => let! s := plain P1 D G q in Ok (q, s) end) = (let! s := plain P1 D G [x] in Ok ([x], s))) as ->.
      { destruct D as [d|]; [by rewrite rest_none|done]. }
      cbn [plain]. unfold head. rewrite Hx. by eexists.
    + rewrite <- (look_eq _ _ _ _ HE) in Hx. pose proof (proj2 HE _ _ Hx) as Hl.
      assert ((let! a := match D with Some c => rest P1 D c 1 (x :: p) | None => Ok (Lost (x :: p)) end in match a with Found s => Ok (w_this :: (x :: p), s) | Lost q => let! s := plain P1 D G q in Ok (q, s) end) = (let! s := plain P1 D G (x :: p) in Ok (x :: p, s))) as ->.
      { destruct D as [d|]; [by rewrite rest_none|done]. }
      cbn [plain]. unfold head. rewrite Hx. destruct Hl as (Hn1 & Hn2 & _). apply str_eqb_false in Hn1, Hn2. rewrite Hn1, Hn2, own_need.
      rewrite <- (as_named_res r) in Hc. apply rest_iff in Hc. destruct p as [|n p]; [inversion Hc|]. rewrite Hc. by eexists.
    + rewrite <- (look_eq _ _ _ _ HE) in Hx. pose proof Hsound as (_ & _ & _ & _ & _ & _ & Hfn). destruct (Hfn q Hq) as [Hn1 Hn2]. rewrite Hn in Hn1, Hn2.
      assert (existsb (fun q => str_eqb (m_name q) m) (p_funcs P) = true) as Hex. { apply existsb_exists. exists q. split; [done|]. by apply str_eqb_true. }
      destruct D as [d|].
      * assert (fine_local P (Some d) m) as Hl. { split; [done|]. split; [done|exact Hm]. }
        rewrite rest_none by done. cbn [rbind plain]. unfold head. rewrite Hx. apply str_eqb_false in Hn1. rewrite Hn1.
        pose proof (rest_none (Some d) d m [] Hl) as Hr. cbn [rest] in Hr. destruct (bp_resolve P1 (depth P1) d m 1) as [y|]; [by destruct y|].
        cbn [p_funcs]. rewrite Hex. by eexists.
      * cbn [rbind plain]. unfold head. rewrite Hx. cbn [p_funcs]. rewrite Hex. by eexists.
Qed.

(** Methods. *)
Lemma own_method_iff c k m i q : is_class P c k -> own_method (complete k) 1 m i = Some q <-> has_method k q /\ fits m i q.
Proof.
  intros Hk. split.
  - intros [Hin Hf]%find_some. split; [by apply complete_methods|]. by apply is_method_fits in Hf as [? _].
  - intros [Hq Hf]. apply (find_key signature).
    + apply (complete_signatures P). by apply (sound_of P Hsound c).
    + by apply complete_methods.
    + apply is_method_fits. split; [done|apply seen_one].
    + intros x [[H1 H2] _]%is_method_fits. destruct Hf as [H3 H4]. unfold signature. congruence.
Qed.
Lemma own_method_none c k m i : is_class P c k -> own_method (complete k) 1 m i = None <-> forall q, has_method k q -> ~ fits m i q.
Proof.
  intros Hk. split.
  - intros H q Hq Hf. assert (own_method (complete k) 1 m i = Some q); [by apply (own_method_iff c)|congruence].
  - intros H. destruct (own_method (complete k) 1 m i) eqn:E; [|done]. apply (own_method_iff c) in E as [H1 H2]; [|done]. by destruct (H _ H1).
Qed.
Lemma method_picks f c m i q : bp_method P1 f c m i = Some q -> exists e, picks P c m i e q.
Proof.
  revert c. induction f as [|f IH]; intros c; cbn [bp_method]; [done|]. destruct (class_of P1 c) as [k1|] eqn:Hc; [|done].
  apply (class_of_P1 P) in Hc as (k & Hk & ->). destruct (own_method (complete k) 1 m i) as [q'|] eqn:Ho.
  - intros [= ->]. apply (own_method_iff c) in Ho as [Hq Hf]; [|done]. exists c. by eapply picks_own.
  - rewrite complete_base. destruct (c_base k) as [b|] eqn:Hb; [|done]. intros [e He]%IH. exists e. eapply picks_up; try done. by apply (own_method_none c).
Qed.
Lemma picks_method c m i e q : picks P c m i e q -> forall n f, height P c n -> n <= f -> bp_method P1 f c m i = Some q.
Proof.
  induction 1 as [c k m i q Hk Hq Hf|c k m i b d q Hk Hno Hb Hp IH]; intros n f Hn Hle; (destruct f as [|f]; [inversion Hn; lia|]); cbn [bp_method];
    pose proof (class_of_complete P Hsound _ _ Hk) as Hc; cbv zeta in Hc; rewrite Hc.
  - by rewrite (proj2 (own_method_iff c k m i q Hk)).
  - rewrite (proj2 (own_method_none c k m i Hk) Hno), complete_base, Hb.
    inversion Hn as [c' k' Hk' Hb'|c' k' b' n' Hk' Hb' Hn']; subst; pose proof (class_unique P Hsound _ _ _ Hk Hk'); subst k'; [congruence|].
    assert (b' = b) as -> by congruence. apply (IH n'); [done|lia].
Qed.
Lemma method_iff c m i q : bp_method P1 (depth P1) c m i = Some q <-> exists e, picks P c m i e q.
Proof.
  split; [apply method_picks|]. intros [e He]. assert (exists k, is_class P c k) as [k Hk] by (inversion He; subst; eauto).
  destruct (tall P Hsound _ _ Hk) as (n & Hn & Hle). by eapply picks_method.
Qed.
Lemma func_iff m i q : func P1 m i = Some q <-> In q (p_funcs P) /\ fits m i q.
Proof.
  split.
  - intros [Hin Hf]%find_some. split; [done|]. by apply is_method_fits in Hf as [? _].
  - intros [Hq Hf]. apply (find_key signature); [apply Hsound|done| |].
    + apply is_method_fits. split; [done|apply seen_one].
    + intros x [[H1 H2] _]%is_method_fits. destruct Hf as [H3 H4]. unfold signature. congruence.
Qed.
(** The types. *)
Lemma class_known c : (exists k, class_of P1 c = Some k) <-> exists k, is_class P c k.
Proof.
  split.
  - intros [k1 H]. unfold class_of in H. apply find_some in H as [Hin Hn]. cbn [p_classes] in Hin. apply in_map_iff in Hin as (k & <- & Hk).
    apply str_eqb_true in Hn. rewrite complete_name in Hn. exists k. by split.
  - intros [k Hk]. pose proof (class_of_complete P Hsound _ _ Hk) as Hc. by eexists.
Qed.
Lemma type_known t : type_ok P1 t = true <-> known_type P t.
Proof.
  unfold known_type. destruct t as [| |c]; cbn [type_ok]; [by split|by split|]. rewrite orb_true_iff. split.
  - intros H d [= <-]. destruct H as [H|H]; [left; by apply str_eqb_true|right]. apply class_known. destruct (class_of P1 c) as [k|]; [by eexists|done].
  - intros H. destruct (H c eq_refl) as [->|Hk]; [left; by apply str_eqb_true|right]. apply class_known in Hk as [k ->]. done.
Qed.
Lemma above_iff c d : above P1 d = Some c <-> exists k, is_class P d k /\ (c_base k = Some c \/ c_base k = None /\ c = w_object).
Proof.
  unfold above. split.
  - destruct (class_of P1 d) as [k1|] eqn:Hc; [|done]. destruct (proj1 (class_known d) (ex_intro _ _ Hc)) as [k Hk]. pose proof (class_of_complete P Hsound _ _ Hk) as Hk2.
    cbv zeta in Hk2. rewrite Hk2 in Hc. injection Hc as <-. rewrite complete_base. intros [= H]. exists k. split; [done|]. destruct (c_base k) as [b|]; cbn [default] in H; [left; by subst|by right].
  - intros (k & Hk & H). pose proof (class_of_complete P Hsound _ _ Hk) as Hk2. cbv zeta in Hk2. rewrite Hk2, complete_base. destruct H as [->|[-> ->]]; done.
Qed.
Lemma assign_suits t u : can_assign t u = true <-> suits t u.
Proof.
  split.
  - destruct t as [| |c], u as [[| |d]|]; cbn [can_assign]; try done; intros H; try (apply suits_number; unfold number; first [by left|by right]). apply str_eqb_true in H as ->. apply suits_same.
  - intros [t' u' [->| ->] [->| ->]|c]; try done. cbn [can_assign]. by apply str_eqb_true.
Qed.
Lemma init_inits t u : can_init P1 t u = true <-> inits P t u.
Proof.
  split.
  - destruct t as [| |c], u as [[| |d]|]; cbn [can_init]; try done; intros H; try (apply inits_same, suits_number; unfold number; first [by left|by right]).
    apply orb_true_iff in H as [H|H]; [apply str_eqb_true in H as ->; apply inits_same, suits_same|]. apply bool_decide_eq_true in H. apply above_iff in H as (k & Hk & [Hb|[Hb ->]]).
    + by eapply inits_below.
    + by eapply inits_top.
  - intros [t' u' H|c k b Hk Hb|c k Hk Hb].
    + apply assign_suits in H. destruct t' as [| |c], u' as [[| |d]|]; cbn [can_init can_assign] in *; try done. by rewrite H.
    + cbn [can_init]. apply orb_true_iff. right. apply bool_decide_eq_true. apply above_iff. exists k. split; [done|by left].
    + cbn [can_init]. apply orb_true_iff. right. apply bool_decide_eq_true. apply above_iff. exists k. split; [done|by right].
Qed.
Lemma args_types q us : takes_args q us = true <-> us = map Some (map fst (m_params q)).
Proof. unfold takes_args. rewrite bool_decide_eq_true, map_map. done. Qed.

Lemma called_iff D s us t : (forall m d, s = RMeth None m -> D = Some d -> ~ member_of P d m) ->
  called P1 D s us = Ok t <-> gives P (as_named s) us t.
Proof.
  intros Hs. unfold called. set (i := length us). assert (forall q, picked P1 D s i = Some q <-> match s with RVal _ => False | RMeth (Some c) m => exists e, picks P c m i e q | RMeth None m => In q (p_funcs P) /\ fits m i q end) as Hp.
  { intros q. destruct s as [u|[c|] m]; cbn [picked]; [done|apply method_iff|].
    assert ((match D with Some c => bp_method P1 (depth P1) c m i | None => None end) = None) as ->; [|apply func_iff].
    destruct D as [d|]; [|done]. destruct (bp_method P1 (depth P1) d m i) as [q'|] eqn:Hb; [|done]. exfalso. apply method_iff in Hb as [e He].
    apply (Hs m d eq_refl eq_refl). right. clear -He. induction He as [c k m i q Hk Hq [Hn _]|c k m i b d q Hk _ Hb _ (e & k' & q' & Hi & ? & ? & ?)].
    - exists c, k, q. split; [apply isa_refl|done].
    - exists e, k', q'. split; [by eapply isa_up|done]. }
  split.
  - destruct (picked P1 D s i) as [q|]; [|done]. pose proof (proj1 (Hp q) eq_refl) as Hq. destruct (takes_args q us) eqn:Ha; [|done]. intros [= <-]. apply args_types in Ha.
    destruct s as [u|[c|] m]; cbn [as_named]; [done| |].
    + destruct Hq as [e He]. by eapply gives_method.
    + destruct Hq as [H1 H2]. by eapply gives_function.
  - intros H. destruct s as [u|[c|] m]; cbn [as_named] in H; inversion H as [c' m' us' e q H1 H2|m' us' q H1 H2 H3]; subst us'; subst.
    + rewrite (proj2 (Hp q)); [|by eexists]. rewrite (proj2 (args_types q _) eq_refl). done.
    + rewrite (proj2 (Hp q)); [|done]. rewrite (proj2 (args_types q _) eq_refl). done.
Qed.
Lemma typed_some l c n o m : typed_member P l c n (NMethod o m) -> o <> None.
Proof. intros H. inversion H; done. Qed.
Lemma chained_some D l c p o m : chained P D l c p (NMethod o m) -> o <> None.
Proof.
  intros H. remember (NMethod o m) as r eqn:Hr. induction H as [l c n r Ht|]; [|by apply IHchained]. subst. by eapply typed_some.
Qed.
Lemma stands_none D T p m : stands P D T p (NMethod None m) -> forall d, D = Some d -> ~ member_of P d m.
Proof.
  intros H. remember (NMethod None m) as r eqn:Hr. destruct H; subst; try done; try (by exfalso; eapply chained_some). injection Hr as <-. done.
Qed.

(** Expressions. *)
Lemma fold_fine {A} (Q : A -> Prop) l : fold_right (fun a => and (Q a)) True l <-> Forall Q l.
Proof. induction l as [|a l IH]; cbn; [split; [constructor|done]|]. rewrite IH. split; [intros [? ?]; by constructor|intros H; inversion H; subst; done]. Qed.
Lemma args_sound D G T l : Forall (fun e => simple_expr P D e -> forall e' t, elab P1 D G e = Ok (e', t) -> wt P D T e t) l ->
  Forall (simple_expr P D) l -> forall r, each (elab P1 D G) l = Ok r -> wts P D T l (map snd r).
Proof.
  intros HI Hf r Hr. apply each_forall in Hr. induction Hr as [|a b l r Hab _ IH]; [constructor|]. apply Forall_cons in HI as [HI1 HI2]. apply Forall_cons in Hf as [Hf1 Hf2].
  destruct b as [a' t]. cbn [map snd]. eapply wts_cons; [by eapply HI1|by apply IH].
Qed.
Lemma wts_length D T l us : wts P D T l us -> length us = length l.
Proof. induction l as [|e l IH] in us |- *; intros H; inversion H; subst; cbn; [done|]. f_equal. by apply IH. Qed.
Lemma elab_sound D G T e : env_ok D G T -> simple_expr P D e -> forall e' t, elab P1 D G e = Ok (e', t) -> wt P D T e t.
Proof.
  intros HE. induction e as [z| |p|p l IH|c l IH|a b IHa IHb|a b IHa IHb|a p IHa|a p l IHa IH|c a IHa] using expr_all; intros Hf e' t H; cbn [simple_expr] in Hf.
  - injection H as _ <-. constructor.
  - injection H as _ <-. constructor.
  - pose proof Hf as Hk. cbn [elab] in H. bnd H. destruct a as [p' s]. cbn [snd fst] in H. destruct s as [u|]; [|done]. injection H as _ <-.
    apply wt_path. apply (name_iff D G T p (RVal u) HE Hk). by exists p'.
  - destruct Hf as [Hk Hl]. apply fold_fine in Hl. cbn [elab] in H. bnd H. bnd H. bnd H. injection H as _ <-. destruct a as [p' s]. cbn [snd] in *.
    assert (stands P D T p (as_named s)) as Hs. { apply (name_iff D G T p s HE Hk). by exists p'. }
    eapply wt_call; [exact Hs|by eapply args_sound|]. apply (called_iff D); [|done]. intros m d -> Hd. by eapply stands_none.
  - apply fold_fine in Hf. cbn [elab] in H. bnd H. destruct (bp_method P1 (depth P1) c w_new (length l)) as [q|] eqn:Hm; [|done].
    destruct (takes_args q _) eqn:Ha; [|done]. injection H as _ <-. apply args_types in Ha.
    apply method_iff in Hm as [e He]. pose proof (args_sound D G T l IH Hf _ Hb) as Hw. rewrite <- (wts_length _ _ _ _ Hw) in He. by eapply wt_new.
  - destruct Hf as [Hf1 Hf2]. cbn [elab] in H. bnd H. bnd H. destruct (bool_decide _) eqn:Hd; [|done]. apply bool_decide_eq_true in Hd as [H1 H2].
    injection H as _ <-. destruct a0, a1. cbn [snd] in *. subst. eapply wt_add; [by eapply IHa|by eapply IHb].
  - destruct Hf as [Hf1 Hf2]. cbn [elab] in H. bnd H. bnd H. destruct (bool_decide _) eqn:Hd; [|done]. apply bool_decide_eq_true in Hd as [H1 H2].
    injection H as _ <-. destruct a0, a1. cbn [snd] in *. subst. eapply wt_less; [by eapply IHa|by eapply IHb].
  - pose proof Hf as Hf1. cbn [elab] in H. bnd H. destruct a0 as [x o]. cbn [snd fst] in H. destruct o as [[| |c]|]; try done. bnd H. destruct a0 as [[u|]|]; try done. injection H as _ <-.
    eapply wt_dot; [by eapply IHa|]. by apply (rest_iff D Other c p (RVal u)).
  - destruct Hf as (Hf1 & Hl). apply fold_fine in Hl. cbn [elab] in H. bnd H. destruct a0 as [x o]. cbn [snd fst] in H. destruct o as [[| |c]|]; try done. bnd H. destruct a0 as [s|]; try done.
    bnd H. bnd H. injection H as _ <-. apply (rest_iff D Other c p s) in Hb0. eapply wt_dotcall; [by eapply IHa|exact Hb0|by eapply args_sound|].
    apply (called_iff D); [|done]. intros m d -> _ _. by apply chained_some in Hb0.
  - cbn [elab] in H. destruct (type_ok P1 (TObj c)) eqn:Ht; [|done]. apply type_known in Ht. bnd H. destruct a0 as [x o]. cbn [snd fst] in H. destruct o as [[| |d]|]; try done. injection H as _ <-.
    eapply wt_cast; [done|by eapply IHa].
Qed.
Lemma elab_complete D G T : env_ok D G T ->
  (forall e t, wt P D T e t -> simple_expr P D e -> exists e', elab P1 D G e = Ok (e', t)) /\
  (forall l us, wts P D T l us -> Forall (simple_expr P D) l -> exists r, each (elab P1 D G) l = Ok r /\ map snd r = us).
Proof.
  intros HE. apply wt_wts.
  - by eexists.
  - by eexists.
  - intros p t Hs Hk. destruct (proj2 (name_iff D G T p (RVal t) HE Hk) Hs) as [p' Hp]. cbn [elab]. rewrite Hp. by eexists.
  - intros p args r us t Hs _ IH Hg [Hk Hl%fold_fine]. rewrite <- (as_named_res r) in Hs, Hg. destruct (proj2 (name_iff D G T p _ HE Hk) Hs) as [p' Hp].
    destruct (IH Hl) as (rs & Hr & <-). cbn [elab]. rewrite Hp. cbn [rbind]. rewrite Hr. cbn [rbind snd].
    apply (called_iff D) in Hg. 2:{ intros m d Hm Hd. rewrite Hm in Hs. by eapply stands_none. } rewrite Hg. by eexists.
  - intros c args us e q Hw IH Hp Ha Hl%fold_fine. destruct (IH Hl) as (rs & Hr & <-). cbn [elab]. rewrite Hr. cbn [rbind]. rewrite (wts_length _ _ _ _ Hw) in Hp.
    rewrite (proj2 (method_iff c w_new (length args) q) (ex_intro _ _ Hp)), (proj2 (args_types q _) Ha). by eexists.
  - intros a b _ IHa _ IHb [Hf1 Hf2]. destruct (IHa Hf1) as [a' Ha]. destruct (IHb Hf2) as [b' Hb]. cbn [elab]. rewrite Ha. cbn [rbind]. rewrite Hb. by eexists.
  - intros a b _ IHa _ IHb [Hf1 Hf2]. destruct (IHa Hf1) as [a' Ha]. destruct (IHb Hf2) as [b' Hb]. cbn [elab]. rewrite Ha. cbn [rbind]. rewrite Hb. by eexists.
  - intros a c p t _ IHa Hc Hf1. destruct (IHa Hf1) as [a' Ha]. cbn [elab]. rewrite Ha. cbn [rbind snd fst]. apply (rest_iff D Other c p (RVal t)) in Hc. cbn [need] in Hc. rewrite Hc. by eexists.
  - intros a c p args r us t _ IHa Hc _ IH Hg (Hf1 & Hl%fold_fine). destruct (IHa Hf1) as [a' Ha]. destruct (IH Hl) as (rs & Hr & <-). cbn [elab]. rewrite Ha. cbn [rbind snd fst].
    rewrite <- (as_named_res r) in Hc, Hg. apply (called_iff D) in Hg. 2:{ intros m d Hm _ _. rewrite Hm in Hc. by apply chained_some in Hc. }
    apply (rest_iff D Other c p) in Hc. cbn [need] in Hc. rewrite Hc. cbn [rbind]. rewrite Hr. cbn [rbind]. rewrite Hg. by eexists.
  - intros c a d Ht _ IHa Hf. destruct (IHa Hf) as [a' Ha]. cbn [elab]. rewrite (proj2 (type_known (TObj c)) Ht), Ha. by eexists.
  - by eexists.
  - intros e l t us _ IHe _ IHl [Hf1 Hf2]%Forall_cons. destruct (IHe Hf1) as [e' He]. destruct (IHl Hf2) as (r & Hr & <-). cbn [each]. rewrite He. cbn [rbind].
    change (exists r0, (let! r1 := each (elab P1 D G) l in Ok ((e', t) :: r1)) = Ok r0 /\ map snd r0 = t :: map snd r). rewrite Hr. by eexists.
Qed.

(** Statements. *)
Lemma env_decl D b G T m x t : env_ok D (b :: G) (m :: T) -> fine_local P D x -> env_ok D (((x, t) :: b) :: G) (tupd m x t :: T).
Proof.
  intros [H1 H2] Hx. apply Forall2_cons in H1 as [Hb HG]. split.
  - constructor; [|done]. intros y. rewrite get_cons. unfold tupd. destruct (str_eqb x y) eqn:E.
    + apply str_eqb_true in E. by rewrite bool_decide_eq_true_2.
    + apply str_eqb_false in E. rewrite bool_decide_eq_false_2; [apply Hb|]. intros ->. by apply E.
  - intros y u. cbn [slook]. rewrite get_cons. destruct (str_eqb x y) eqn:E; [apply str_eqb_true in E; by subst|]. intros Hy. by apply (H2 y u).
Qed.
Lemma env_block D G T : env_ok D G T -> env_ok D ([] :: G) ((fun _ => None) :: T).
Proof. intros [H1 H2]. split; [by constructor|exact H2]. Qed.
Lemma env_cons D b G T : env_ok D (b :: G) T -> exists m T', T = m :: T' /\ forall x, get x b = m x.
Proof. intros [H _]. inversion H; subst. by eexists _, _. Qed.
Lemma env_cons' D G m T : env_ok D G (m :: T) -> exists b G', G = b :: G' /\ forall x, get x b = m x.
Proof. intros [H _]. inversion H; subst. by eexists _, _. Qed.

Lemma stmt_block_list D (R : option ty) : forall l G, (fix go G l := match l with
                  | [] => Ok ([], G)
                  | s :: l => let! x := elab_stmt P1 D R G s in let! y := go (snd x) l in Ok (fst x :: fst y, snd y)
                  end) G l = elab_list P1 D R G l.
Proof. induction l as [|s l IH]; intros G; cbn [elab_list]; [done|]. destruct (elab_stmt P1 D R G s); cbn [rbind]; try done. by rewrite IH. Qed.
Lemma list_sound D R l : Forall (fun s => simple_stmt P D s -> forall G T s' G', env_ok D G T -> elab_stmt P1 D R G s = Ok (s', G') -> exists T', env_ok D G' T' /\ wst P D R T s T') l ->
  Forall (simple_stmt P D) l -> forall G T l' G', env_ok D G T -> elab_list P1 D R G l = Ok (l', G') -> exists T', env_ok D G' T' /\ wsts P D R T l T'.
Proof.
  induction l as [|s l IH]; intros HI Hf G T l' G' HE H; cbn [elab_list] in H.
  - injection H as _ <-. exists T. split; [done|constructor].
  - apply Forall_cons in HI as [HI1 HI2]. apply Forall_cons in Hf as [Hf1 Hf2]. bnd H. bnd H. injection H as _ <-. destruct a as [s' G1], a0 as [l2 G2]. cbn [snd] in *.
    destruct (HI1 Hf1 _ _ _ _ HE Hb) as (T1 & HE1 & Hs). destruct (IH HI2 Hf2 _ _ _ _ HE1 Hb0) as (T2 & HE2 & Hl). exists T2. split; [done|]. by eapply wsts_cons.
Qed.
Lemma env_catch D G T x c : env_ok D G T -> fine_local P D x -> env_ok D ([(x, TObj c)] :: G) (tupd (fun _ => None) x (TObj c) :: T).
Proof. intros HE Hx. exact (env_decl D [] G T _ x (TObj c) (env_block _ _ _ HE) Hx). Qed.
Lemma stmt_try_list D (R : option ty) G : forall ks, (fix go ks := match ks with
                  | [] => Ok []
                  | k :: ks =>
                      if type_ok P1 (TObj (fst (fst k))) then
                        let! y := elab_stmt P1 D R ([(snd (fst k), TObj (fst (fst k)))] :: G) (snd k) in
                        let! z := go ks in Ok ((fst k, fst y) :: z)
                      else Throw "invalid symbol"
                  end) ks = elab_catches P D R G ks.
Proof.
  induction ks as [|k ks IH]; [done|]. cbn [elab_catches]. change (Prog (map complete (p_classes P)) (p_funcs P)) with P1. destruct (type_ok P1 (TObj (fst (fst k)))); [|done].
  destruct (elab_stmt P1 D R ([(snd (fst k), TObj (fst (fst k)))] :: G) (snd k)); cbn [rbind]; try done. by rewrite IH.
Qed.
Lemma stmt_sound D R s : simple_stmt P D s -> forall G T s' G', env_ok D G T -> elab_stmt P1 D R G s = Ok (s', G') -> exists T', env_ok D G' T' /\ wst P D R T s T'.
Proof.
  induction s as [t x e|p e|e|e|o|e a b IHa IHb|l IH|e l IH| | | |e|a ks IHa IH] using stmt_all; intros Hf G T s' G' HE H; cbn [simple_stmt] in Hf; cbn [elab_stmt] in H.
  - destruct Hf as [Hx Hf]. destruct G as [|b G]; [done|]. destruct (get x b) eqn:Hg; [done|]. destruct (type_ok P1 t) eqn:Ht; [|done]. bnd H. destruct a as [e' u]. cbn [snd fst] in H. destruct (can_init P1 t u) eqn:Hi; [|done]. injection H as _ <-.
    destruct (env_cons _ _ _ _ HE) as (m & T' & -> & Hm). pose proof (env_decl _ _ _ _ _ x t HE Hx) as HE2. eexists. split; [exact HE2|].
    eapply wst_decl; [by rewrite <- Hm|by apply type_known|by eapply elab_sound|by apply init_inits].
  - destruct Hf as [Hk Hf]. bnd H. destruct a as [p' [u|]]; cbn [snd fst] in H; [|done]. bnd H. destruct a as [e' w]. cbn [snd fst] in H. destruct (can_assign u w) eqn:Ha; [|done]. injection H as _ <-. exists T. split; [done|].
    eapply wst_assign; [|by eapply elab_sound|by apply assign_suits]. apply (name_iff D G T p (RVal u) HE Hk). by exists p'.
  - bnd H. injection H as _ <-. destruct a. exists T. split; [done|]. eapply wst_print. by eapply elab_sound.
  - bnd H. injection H as _ <-. destruct a. exists T. split; [done|]. eapply wst_expr. by eapply elab_sound.
  - destruct o as [e|].
    + bnd H. destruct a as [e' w]. cbn [snd fst] in H. destruct (bool_decide (w = R)) eqn:Hd; [|done]. apply bool_decide_eq_true in Hd as ->. injection H as _ <-.
      exists T. split; [done|]. eapply wst_return. by eapply elab_sound.
    + destruct (bool_decide (R = None)) eqn:Hd; [|done]. apply bool_decide_eq_true in Hd. injection H as _ <-. exists T. split; [done|]. by apply wst_leave.
  - destruct Hf as (Hf0 & Hf1 & Hf2). bnd H. bnd H. bnd H. injection H as _ <-. destruct a0, a1 as [a' G1], a2 as [b' G2]. cbn [snd] in *.
    destruct (IHa Hf1 _ _ _ _ HE Hb0) as (T1 & HE1 & H1). destruct (IHb Hf2 _ _ _ _ HE1 Hb1) as (T2 & HE2 & H2). exists T2. split; [done|].
    eapply wst_if; [by eapply elab_sound|done|done].
  - rewrite stmt_block_list in H. bnd H. injection H as _ <-. destruct a as [l' G1]. apply fold_fine in Hf. exists T. split; [done|].
    destruct (list_sound D R l IH Hf _ _ _ _ (env_block _ _ _ HE) Hb) as (T1 & _ & Hl). by eapply wst_block.
  - destruct Hf as [Hf0 Hf]. bnd H. rewrite stmt_block_list in H. bnd H. injection H as _ <-. destruct a, a0 as [l' G1]. apply fold_fine in Hf. exists T. split; [done|].
    destruct (list_sound D R l IH Hf _ _ _ _ (env_block _ _ _ HE) Hb0) as (T1 & _ & Hl). eapply wst_while; [by eapply elab_sound|done].
  - injection H as _ <-. exists T. split; [done|constructor].
  - injection H as _ <-. exists T. split; [done|constructor].
  - injection H as _ <-. exists T. split; [done|constructor].
  - bnd H. injection H as _ <-. destruct a. exists T. split; [done|]. eapply wst_throw. by eapply elab_sound.
  - destruct Hf as [Hf0 Hf]. bnd H. rewrite stmt_try_list in H. bnd H. injection H as _ <-. destruct a0 as [a' Ga]. exists T. split; [done|].
    destruct (IHa Hf0 _ _ _ _ HE Hb) as (T1 & _ & Ha). eapply wst_try; [exact Ha|]. clear Ha Hb. revert a1 Hb0 Hf.
    induction IH as [|[[c x] b] ks Hk _ IHks]; intros r Hr Hf; [constructor|]. cbn [elab_catches fst snd] in Hr. change (Prog (map complete (p_classes P)) (p_funcs P)) with P1 in Hr. destruct Hf as [[Hx Hfb] Hf].
    destruct (type_ok P1 (TObj c)) eqn:Ht; [|done]. bnd Hr. bnd Hr. destruct a0 as [b' Gb]. cbn [snd fst] in *.
    destruct (Hk Hfb _ _ _ _ (env_catch _ _ _ x c HE Hx) Hb) as (T2 & _ & Hw). eapply wks_cons; [by apply type_known|exact Hw|by eapply IHks].
Qed.
Lemma stmt_complete D R :
  (forall T s T', wst P D R T s T' -> simple_stmt P D s -> forall G, env_ok D G T -> exists s' G', elab_stmt P1 D R G s = Ok (s', G') /\ env_ok D G' T') /\
  (forall T l T', wsts P D R T l T' -> Forall (simple_stmt P D) l -> forall G, env_ok D G T -> exists l' G', elab_list P1 D R G l = Ok (l', G') /\ env_ok D G' T') /\
  (forall T ks, wks P D R T ks -> fold_right (fun k => and (fine_local P D (snd (fst k)) /\ simple_stmt P D (snd k))) True ks -> forall G, env_ok D G T -> exists r, elab_catches P D R G ks = Ok r).
Proof.
  apply wst_wsts.
  - intros m T t x e u Hm Ht He Hi [Hx Hf] G HE. destruct (env_cons' _ _ _ _ HE) as (b & G' & -> & Hb). pose proof (env_decl _ _ _ _ _ x t HE Hx) as HE2.
    destruct (proj1 (elab_complete _ _ _ HE2) _ _ He Hf) as [e' He']. cbn [elab_stmt]. rewrite Hb, Hm, (proj2 (type_known t) Ht), He'. cbn [rbind snd]. rewrite (proj2 (init_inits t u) Hi). by eexists _, _.
  - intros T p t e u Hs He Hu [Hk Hf] G HE. destruct (proj2 (name_iff D G T p (RVal t) HE Hk) Hs) as [p' Hp]. destruct (proj1 (elab_complete _ _ _ HE) _ _ He Hf) as [e' He'].
    cbn [elab_stmt]. rewrite Hp. cbn [rbind snd]. rewrite He'. cbn [rbind snd]. rewrite (proj2 (assign_suits t u) Hu). by eexists _, _.
  - intros T e u He Hf G HE. destruct (proj1 (elab_complete _ _ _ HE) _ _ He Hf) as [e' He']. cbn [elab_stmt]. rewrite He'. by eexists _, _.
  - intros T e u He Hf G HE. destruct (proj1 (elab_complete _ _ _ HE) _ _ He Hf) as [e' He']. cbn [elab_stmt]. rewrite He'. by eexists _, _.
  - intros T HR _ G HE. cbn [elab_stmt]. rewrite bool_decide_eq_true_2 by done. by eexists _, _.
  - intros T e He Hf G HE. destruct (proj1 (elab_complete _ _ _ HE) _ _ He Hf) as [e' He']. cbn [elab_stmt]. rewrite He'. cbn [rbind snd]. rewrite bool_decide_eq_true_2 by done. by eexists _, _.
  - intros T T1 T2 e u a b He _ IHa _ IHb (Hf0 & Hf1 & Hf2) G HE. destruct (proj1 (elab_complete _ _ _ HE) _ _ He Hf0) as [e' He'].
    destruct (IHa Hf1 G HE) as (a' & G1 & Ha & HE1). destruct (IHb Hf2 G1 HE1) as (b' & G2 & Hb & HE2). cbn [elab_stmt]. rewrite He'. cbn [rbind]. rewrite Ha. cbn [rbind snd]. rewrite Hb. by eexists _, _.
  - intros T T1 l _ IH Hf G HE. apply fold_fine in Hf. destruct (IH Hf _ (env_block _ _ _ HE)) as (l' & G1 & Hl & _). cbn [elab_stmt]. rewrite stmt_block_list, Hl. by eexists _, _.
  - intros T T1 e u l He _ IH [Hf0 Hf] G HE. apply fold_fine in Hf. destruct (proj1 (elab_complete _ _ _ HE) _ _ He Hf0) as [e' He'].
    destruct (IH Hf _ (env_block _ _ _ HE)) as (l' & G1 & Hl & _). cbn [elab_stmt]. rewrite He'. cbn [rbind]. rewrite stmt_block_list, Hl. by eexists _, _.
  - intros T e u He Hf G HE. destruct (proj1 (elab_complete _ _ _ HE) _ _ He Hf) as [e' He']. cbn [elab_stmt]. rewrite He'. by eexists _, _.
  - intros T T1 a ks _ IHa _ IHk [Hf0 Hf] G HE. destruct (IHa Hf0 G HE) as (a' & G1 & Ha & _). destruct (IHk Hf G HE) as [r Hr]. cbn [elab_stmt]. rewrite Ha. cbn [rbind].
    rewrite stmt_try_list, Hr. by eexists _, _.
  - intros T _ G HE. by eexists _, _.
  - intros T _ G HE. by eexists _, _.
  - intros T _ G HE. by eexists _, _.
  - intros T _ G HE. by eexists _, _.
  - intros T T1 T2 s l _ IHs _ IHl [Hf1 Hf2]%Forall_cons G HE. destruct (IHs Hf1 G HE) as (s' & G1 & Hs & HE1). destruct (IHl Hf2 G1 HE1) as (l' & G2 & Hl & HE2).
    cbn [elab_list]. rewrite Hs. cbn [rbind snd]. rewrite Hl. by eexists _, _.
  - intros T _ G HE. by eexists.
  - intros T T1 c x b ks Ht _ IHb _ IHk [[Hx Hfb] Hf] G HE. cbn [fst snd] in Hx, Hfb. destruct (IHb Hfb _ (env_catch _ _ _ x c HE Hx)) as (b' & G1 & Hb & _). destruct (IHk Hf G HE) as [r Hr].
    cbn [elab_catches fst snd]. change (Prog (map complete (p_classes P)) (p_funcs P)) with P1. rewrite (proj2 (type_known (TObj c)) Ht), Hb. cbn [rbind]. rewrite Hr. by eexists.
Qed.

Lemma env_params D q : Forall (fine_local P D) (map snd (m_params q)) -> env_ok D [map (fun q => (snd q, fst q)) (m_params q)] [types (m_params q)].
Proof.
  intros Hf. split.
  - constructor; [|constructor]. intros x. clear Hf. induction (m_params q) as [|[t n] ps IH]; [done|]. cbn [map snd fst types]. rewrite get_cons. unfold tupd. destruct (str_eqb n x) eqn:E.
    + apply str_eqb_true in E. by rewrite bool_decide_eq_true_2.
    + apply str_eqb_false in E. rewrite bool_decide_eq_false_2; [apply IH|]. intros ->. by apply E.
  - intros x t. cbn [slook]. intros H. assert (In x (map fst (map (fun q => (snd q, fst q)) (m_params q)))) as Hin.
    { apply get_in. destruct (get x _) as [u|]; [by exists u|done]. }
    rewrite map_map in Hin. cbn [fst] in Hin. rewrite Forall_forall in Hf. apply Hf. by apply elem_of_list_In.
Qed.
Lemma method_accept D q : simple_method P D q -> (exists q', elab_method P1 D q = Ok q') <-> well_typed_method P D q.
Proof.
  intros [Hp Hb]. pose proof (env_params _ _ Hp) as HE. unfold elab_method, well_typed_method. split.
  - intros [q' H]. destruct (controlled q) eqn:Hc; cbn [negb] in H; [|done]. apply controlled_iff in Hc. split; [|done]. bnd H. destruct a as [l G]. destruct (list_sound D (m_ret q) (m_body q)) with (2 := Hb) (3 := HE) (4 := Hb0) as (T & _ & HT); [|by exists T].
    apply Forall_forall. intros s _. intros ?. by apply stmt_sound.
  - intros [[T HT] Hc]. apply controlled_iff in Hc. rewrite Hc. cbn [negb]. destruct (proj1 (proj2 (stmt_complete D (m_ret q))) _ _ _ HT Hb _ HE) as (l & G & Hl & _). rewrite Hl. by eexists.
Qed.
Lemma each_iff {A B} (f : A -> res B) l : (exists r, each f l = Ok r) <-> forall a, In a l -> exists b, f a = Ok b.
Proof.
  induction l as [|a l IH]; [split; [done|by eexists]|]. change (each f (a :: l)) with (let! b := f a in let! r := each f l in Ok (b :: r)). split.
  - intros [r H]. bnd H. bnd H. intros x [<-|Hx]; [by eexists|]. apply IH; [by eexists|done].
  - intros H. destruct (H a) as [b Hb]; [by left|]. destruct (proj2 IH) as [r Hr]; [intros x Hx; apply H; by right|]. rewrite Hb. cbn [rbind]. rewrite Hr. by eexists.
Qed.
Lemma load_iff : simple P -> (exists L, load P = Ok L) <-> well_typed P.
Proof.
  intros (_ & Hms & Hf). unfold load. cbn [p_classes p_funcs].
  assert ((exists L, (let! ks := each (elab_class P1) (map complete (p_classes P)) in let! fs := each (elab_method P1 None) (p_funcs P) in Ok (Prog ks fs)) = Ok L) <->
    (exists r, each (elab_class P1) (map complete (p_classes P)) = Ok r) /\ (exists r, each (elab_method P1 None) (p_funcs P) = Ok r)) as ->.
  { split.
    - intros [L H]. bnd H. bnd H. split; by eexists.
    - intros [[r ->] [r' ->]]. by eexists. }
  rewrite !each_iff. unfold well_typed.
  assert ((forall a, In a (p_funcs P) -> exists b, elab_method P1 None a = Ok b) <-> (forall q, In q (p_funcs P) -> well_typed_method P None q)) as ->.
  { split; intros H q Hq; (assert (simple_method P None q) as Hm; [rewrite Forall_forall in Hf; apply Hf; by apply elem_of_list_In|]); [apply (method_accept None q Hm)|apply (method_accept None q Hm)]; by apply H. }
  split; intros [H1 H2]; split; try done; clear H2.
  - intros k q Hk Hq. pose proof (Hms k q Hk Hq) as Hm.
    apply (method_accept _ _ Hm). destruct (H1 (complete k)) as [k' Hk']; [by apply in_map|]. unfold elab_class in Hk'. bnd Hk'. rewrite complete_name in Hb.
    apply (proj1 (each_iff _ _) (ex_intro _ _ Hb)). apply (complete_methods k). by left.
  - intros k1 Hk1. apply in_map_iff in Hk1 as (k & <- & Hk). 
    unfold elab_class. rewrite complete_name.
    destruct (proj2 (each_iff (elab_method P1 (Some (c_name k))) (c_methods (complete k)))) as [r ->]; [|by eexists].
    intros q Hq. apply (complete_methods k) in Hq as [Hq|[_ ->]]; [|by eexists]. pose proof (Hms k q Hk Hq) as Hm. apply (method_accept _ _ Hm). by eapply H1.
Qed.
End Accept.

(** The programs whose run is known are among these. *)
Lemma fine_simple_expr P D e : fine_expr P D e -> simple_expr P D e.
Proof.
  assert (forall l, Forall (fun e => fine_expr P D e -> simple_expr P D e) l -> fold_right (fun a => and (fine_expr P D a)) True l -> fold_right (fun a => and (simple_expr P D a)) True l) as Hl.
  { induction 1 as [|a l Ha _ IH]; [done|]. intros [H1 H2]. split; [by apply Ha|by apply IH]. }
  induction e as [z| |p|p l IH|c l IH|a b IHa IHb|a b IHa IHb|a p IHa|a p l IHa IH|c a IHa] using expr_all; cbn [fine_expr simple_expr]; try done.
  - by intros [_ H].
  - intros [[_ H1] H2]. split; [done|by apply Hl].
  - by apply Hl.
  - intros [H1 H2]. split; [by apply IHa|by apply IHb].
  - intros [H1 H2]. split; [by apply IHa|by apply IHb].
  - intros [H1 _]. by apply IHa.
  - intros (H1 & _ & _ & H2). split; [by apply IHa|by apply Hl].
Qed.
Lemma fine_simple_stmt P D s : fine_stmt P D s -> simple_stmt P D s.
Proof.
  induction s as [t x e|p e|e|e|o|e a b IHa IHb|l IH|e l IH| | | |e|a ks IHa IH] using stmt_all; cbn [fine_stmt simple_stmt].
  - intros [H1 H2%fine_simple_expr]. done.
  - intros ([_ H1] & _ & H2%fine_simple_expr). done.
  - apply fine_simple_expr.
  - apply fine_simple_expr.
  - destruct o; [apply fine_simple_expr|done].
  - intros (H1%fine_simple_expr & H2%IHa & H3%IHb). done.
  - intros H. induction IH as [|a l Ha _ IHl]; [done|]. destruct H as [H1 H2]. split; [by apply Ha|by apply IHl].
  - intros [H0%fine_simple_expr H]. split; [done|]. induction IH as [|a l Ha _ IHl]; [done|]. destruct H as [H1 H2]. split; [by apply Ha|by apply IHl].
  - done.
  - done.
  - done.
  - apply fine_simple_expr.
  - intros [H0%IHa H]. split; [done|]. clear H0. induction IH as [|k ks Hk _ IHks]; [done|]. destruct H as [[H1 H2] H3]. split; [split; [done|by apply Hk]|by apply IHks].
Qed.
Lemma fine_simple P : fine P -> simple P.
Proof.
  assert (forall D q, fine_method P D q -> simple_method P D q) as Hm.
  { intros D q [H1 H2]. split; [done|]. eapply Forall_impl; [exact H2|]. intros s. apply fine_simple_stmt. }
  intros (Hs & H1 & H2). split; [done|]. split; [intros k q Hk Hq; by apply Hm, H1|]. eapply Forall_impl; [exact H2|]. intros q. apply Hm.
Qed.
Theorem load_accepts P : simple P -> (exists L, load P = Ok L) <-> well_typed P.
Proof. intros H. apply load_iff; [apply H|done]. Qed.
