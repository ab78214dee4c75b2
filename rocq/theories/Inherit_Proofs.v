From stdpp Require Import relations.
From Verif Require Import Base Base_Proofs Scope_Model Proto_Model Inherit_Model Inherit_Spec.

(** ** Preparing keeps the declarations *)
(** The part of a type that preparing never changes. *)
Definition same_decl (b b' : bp) : Prop :=
  b_name b = b_name b' /\ b_inh b = b_inh b' /\ b_syms b = b_syms b' /\ b_meths b = b_meths b' /\ b_skip b = b_skip b' /\ b_vis b = b_vis b'.
Definition same_world (w w' : gmap str bp) : Prop :=
  (forall t b', w' !! t = Some b' -> exists b, w !! t = Some b /\ same_decl b b') /\
  (forall t b, w !! t = Some b -> exists b', w' !! t = Some b' /\ same_decl b b').
Lemma same_decl_refl b : same_decl b b.
Proof. done. Qed.
Lemma same_decl_trans a b c : same_decl a b -> same_decl b c -> same_decl a c.
Proof. unfold same_decl. naive_solver congruence. Qed.
Lemma same_world_refl w : same_world w w.
Proof. split; intros t b H; exists b; split; try done; apply same_decl_refl. Qed.
Lemma same_world_trans a b c : same_world a b -> same_world b c -> same_world a c.
Proof.
  intros [A1 A2] [B1 B2]. split; intros t x H.
  - destruct (B1 _ _ H) as (y & Hy & S1). destruct (A1 _ _ Hy) as (z & Hz & S2). exists z. split; [done|]. by eapply same_decl_trans.
  - destruct (A2 _ _ H) as (y & Hy & S1). destruct (B2 _ _ Hy) as (z & Hz & S2). exists z. split; [done|]. by eapply same_decl_trans.
Qed.
Lemma same_world_insert w t b b' : w !! t = Some b -> same_decl b b' -> same_world w (<[t := b']> w).
Proof.
  intros H S. split; intros x y Hx.
  - destruct (decide (t = x)) as [->|N].
    + rewrite lookup_insert in Hx. simplify_eq. eauto.
    + rewrite lookup_insert_ne in Hx by done. exists y. split; [done|apply same_decl_refl].
  - destruct (decide (t = x)) as [->|N].
    + simplify_eq. exists b'. rewrite lookup_insert. done.
    + rewrite lookup_insert_ne by done. exists y. split; [done|apply same_decl_refl].
Qed.
Lemma same_world_inherits w w' t p : same_world w w' -> inherits w t p -> inherits w' t p.
Proof.
  intros [A B] (b & a & H & I & E). destruct (B _ _ H) as (b' & H' & S). exists b', a. split; [done|]. split; [|done].
  destruct S as (_ & <- & _). done.
Qed.
Lemma same_world_sym w w' : same_world w w' -> same_world w' w.
Proof.
  intros [A B]. split; intros t b H.
  - destruct (B _ _ H) as (b' & H' & S). exists b'. split; [done|]. unfold same_decl in *. naive_solver.
  - destruct (A _ _ H) as (b' & H' & S). exists b'. split; [done|]. unfold same_decl in *. naive_solver.
Qed.
Lemma same_world_size w w' : same_world w w' -> dom w = dom w'.
Proof.
  intros [A B]. apply set_eq. intros t. rewrite !elem_of_dom. split; intros [b H].
  - destruct (B _ _ H) as (b' & H' & _). eauto.
  - destruct (A _ _ H) as (b' & H' & _). eauto.
Qed.

Lemma rbind_ok {A B} (r : res A) (f : A -> res B) b : rbind r f = Ok b -> exists a, r = Ok a /\ f a = Ok b.
Proof. destruct r; cbn; try done. eauto. Qed.

(** The prepared flag of a type. *)
Definition prep (w : gmap str bp) (t : str) : bool := match w !! t with Some b => b_prepared b | None => false end.

Lemma take_over_ok w t p w' : take_over w t p = Ok w' ->
  same_world (w_types w) (w_types w') /\ w_log w' = w_log w /\ (forall x, prep (w_types w') x = prep (w_types w) x).
Proof.
  unfold take_over. destruct (w_types w !! t) as [b|] eqn:Eb; [|done]. destruct (w_types w !! p) as [pb|] eqn:Ep; [|done].
  intros H. apply rbind_ok in H as (es & H1 & H2). simplify_eq. cbn. split; [|split; [done|]].
  - by apply (same_world_insert _ _ b).
  - intros x. unfold prep. destruct (decide (t = x)) as [->|N].
    + by rewrite lookup_insert, Eb.
    + by rewrite lookup_insert_ne by done.
Qed.
Lemma mark_prepared_ok w t w' : mark_prepared w t = Ok w' ->
  same_world (w_types w) (w_types w') /\ w_log w' = w_log w ++ [t] /\
  prep (w_types w') t = true /\ (forall x, x <> t -> prep (w_types w') x = prep (w_types w) x).
Proof.
  unfold mark_prepared. destruct (w_types w !! t) as [b|] eqn:Eb; [|done]. intros ?; simplify_eq. cbn.
  split; [by apply (same_world_insert _ _ b)|]. split; [done|]. split.
  - unfold prep. by rewrite lookup_insert.
  - intros x N. unfold prep. by rewrite lookup_insert_ne by done.
Qed.

(** One step of the loop. *)
Lemma prepare_loop_cons rec t a l w w' :
  prepare_loop rec t (a :: l) w = Ok w' ->
  exists p w1 w2, w_types w !! parent_name a = Some p /\ inherits_from p t = false /\
    (if b_prepared p then Ok w else rec w (parent_name a)) = Ok w1 /\ take_over w1 t (parent_name a) = Ok w2 /\
    prepare_loop rec t l w2 = Ok w'.
Proof.
  cbn [prepare_loop]. destruct (w_types w !! parent_name a) as [p|] eqn:E; [|done].
  destruct (inherits_from p t) eqn:I; [done|]. intros H. apply rbind_ok in H as (w1 & H1 & H). apply rbind_ok in H as (w2 & H2 & H).
  exists p, w1, w2. done.
Qed.

(** ** Order of preparation *)
Lemma tc_head {A} (R : A -> A -> Prop) x z : tc R x z -> exists y, R x y /\ rtc R y z.
Proof. destruct 1 as [y z H|y z u H1 H2]; [exists z; split; [done|apply rtc_refl]|]. exists z. split; [done|]. by apply tc_rtc. Qed.
Lemma tc_cycle {A} (R : A -> A -> Prop) x : tc R x x -> exists y, R x y /\ tc R y y.
Proof.
  intros H. destruct (tc_head _ _ _ H) as (y & H1 & H2). exists y. split; [done|].
  eapply tc_rtc_l; [exact H2|]. by apply tc_once.
Qed.
Lemma before_app {A} (x y : A) l l' : before x y l -> before x y (l ++ l').
Proof. intros (a & b & c & ->). exists a, b, (c ++ l'). rewrite <- !app_assoc. cbn. by rewrite <- app_assoc. Qed.
Lemma before_last {A} (x y : A) l : x ∈ l -> before x y (l ++ [y]).
Proof. intros H. apply elem_of_list_split in H as (a & b & ->). exists a, b, []. by rewrite <- app_assoc. Qed.

Record Inv (w0 : gmap str bp) (w : world) : Prop := {
  inv_same : same_world w0 (w_types w);
  inv_prep : forall x, prep (w_types w) x = true <-> x ∈ w_log w;
  inv_nodup : NoDup (w_log w);
  inv_order : forall x p, x ∈ w_log w -> inherits w0 x p -> before p x (w_log w);
  inv_acyclic : forall x, x ∈ w_log w -> ~ tc (inherits w0) x x }.

Lemma inherits_self w t b a : w !! t = Some b -> a ∈ b_inh b -> inherits w t (parent_name a).
Proof. intros H I. exists b, a. done. Qed.

Definition keeps (w w' : world) (t : str) : Prop := forall x, x <> t -> prep (w_types w') x = false \/ x ∈ w_log w -> w_types w' !! x = w_types w !! x.

Lemma prep_mono_false (w0 : gmap str bp) w w' l x :
  Inv w0 w -> Inv w0 w' -> w_log w' = w_log w ++ l -> prep (w_types w') x = false -> prep (w_types w) x = false.
Proof.
  intros I I' E H. destruct (prep (w_types w) x) eqn:F; [|done]. apply (inv_prep _ _ I) in F.
  assert (x ∈ w_log w') as G by (rewrite E; set_solver). apply (inv_prep _ _ I') in G. congruence.
Qed.

Definition rec_ok (w0 : gmap str bp) (rec : world -> str -> res world) : Prop :=
  forall w t w', Inv w0 w -> prep (w_types w) t = false -> rec w t = Ok w' ->
    Inv w0 w' /\ ~ tc (inherits w0) t t /\
    (exists l, w_log w' = w_log w ++ l ++ [t] /\ (forall x, x ∈ l -> tc (inherits w0) t x)) /\
    (forall x, prep (w_types w') x = false \/ x ∈ w_log w -> w_types w' !! x = w_types w !! x).

Lemma take_over_keeps w t p w' : take_over w t p = Ok w' -> forall x, x <> t -> w_types w' !! x = w_types w !! x.
Proof.
  unfold take_over. destruct (w_types w !! t) as [b|]; [|done]. destruct (w_types w !! p); [|done].
  intros H x N. apply rbind_ok in H as (es & _ & H). simplify_eq. cbn. by rewrite lookup_insert_ne.
Qed.
Lemma take_over_inv w0 w t p w' : take_over w t p = Ok w' -> Inv w0 w -> Inv w0 w'.
Proof.
  intros H I. apply take_over_ok in H as (S1 & E & P). destruct I as [A B C D F]. split.
  - by eapply same_world_trans.
  - intros x. by rewrite P, E.
  - by rewrite E.
  - intros x q. rewrite E. apply D.
  - intros x. rewrite E. apply F.
Qed.

Lemma prepare_loop_inv w0 rec t : rec_ok w0 rec -> forall l w w',
  Inv w0 w -> (forall a, a ∈ l -> inherits w0 t (parent_name a)) -> prepare_loop rec t l w = Ok w' ->
  Inv w0 w' /\ (exists l', w_log w' = w_log w ++ l' /\ (forall x, x ∈ l' -> tc (inherits w0) t x)) /\
  (forall a, a ∈ l -> parent_name a ∈ w_log w') /\ keeps w w' t.
Proof.
  intros R. induction l as [|a l IH]; intros w w' I A H.
  - cbn in H. simplify_eq. split; [done|]. split; [exists []; rewrite app_nil_r; set_solver|]. split; [set_solver|]. by intros x.
  - apply prepare_loop_cons in H as (p & w1 & w2 & Ep & _ & H1 & H2 & H3).
    assert (Inv w0 w1 /\ (exists l', w_log w1 = w_log w ++ l' /\ (forall x, x ∈ l' -> tc (inherits w0) t x)) /\
            parent_name a ∈ w_log w1 /\ (forall x, prep (w_types w1) x = false \/ x ∈ w_log w -> w_types w1 !! x = w_types w !! x)) as (I1 & (l1 & L1 & T1) & P1 & K1).
    { assert (inherits w0 t (parent_name a)) as TA by (apply A; set_solver).
      destruct (b_prepared p) eqn:Pp.
      - simplify_eq. split; [done|]. split; [exists []; rewrite app_nil_r; set_solver|]. split; [|done].
        apply (inv_prep _ _ I). unfold prep. by rewrite Ep.
      - destruct (R w (parent_name a) w1) as (I1 & _ & (l1 & L1 & T1) & K1); [done| |done|].
        { unfold prep. by rewrite Ep. }
        split; [done|]. split; [|split; [rewrite L1; set_solver|done]].
        exists (l1 ++ [parent_name a]). split; [done|]. intros x Hx. apply elem_of_app in Hx as [Hx|Hx].
        + apply T1 in Hx. by eapply tc_l.
        + apply elem_of_list_singleton in Hx as ->. by apply tc_once. }
    pose proof (take_over_inv _ _ _ _ _ H2 I1) as I2. destruct (take_over_ok _ _ _ _ H2) as (_ & L2 & P2).
    destruct (IH w2 w' I2) as (I3 & (l3 & L3 & T3) & P3 & K3); [set_solver|done|].
    split; [done|]. split; [|split].
    + exists (l1 ++ l3). split; [by rewrite L3, L2, L1, app_assoc|]. set_solver.
    + intros x Hx. apply elem_of_cons in Hx as [->|Hx]; [|by apply P3]. rewrite L3, L2. set_solver.
    + intros x N F. rewrite (K3 x N); [rewrite (take_over_keeps _ _ _ _ H2 x N); apply K1|]; destruct F as [F|F].
      * left. rewrite <- P2. eapply prep_mono_false; [exact I2|exact I3|exact L3|done].
      * by right.
      * by left.
      * right. rewrite L2, L1. set_solver.
Qed.

Lemma prepare_inv w0 n : rec_ok w0 (prepare n).
Proof.
  induction n as [|n IH]; intros w t w' I F H; [done|]. cbn [prepare] in H.
  destruct (w_types w !! t) as [b|] eqn:Eb; [|done]. apply rbind_ok in H as (w1 & H1 & H2).
  destruct (inv_same _ _ I) as [SA SB]. destruct (SA _ _ Eb) as (b0 & Eb0 & SD).
  destruct (prepare_loop_inv w0 _ t IH (b_inh b) w w1 I) as (I1 & (l1 & L1 & T1) & P1 & K1); [|exact H1|].
  { intros a Ha. apply (inherits_self _ _ b0); [done|]. destruct SD as (_ & -> & _). done. }
  assert (forall p, inherits w0 t p -> p ∈ w_log w1) as PA.
  { intros p (b' & a & X & Y & <-). simplify_eq. apply P1. destruct SD as (_ & <- & _). done. }
  assert (~ tc (inherits w0) t t) as NC.
  { intros C. apply tc_cycle in C as (y & C1 & C2). by apply (inv_acyclic _ _ I1 y (PA _ C1)). }
  assert (t ∉ w_log w1) as NT.
  { rewrite L1. intros X. apply elem_of_app in X as [X|X]; [|by apply T1 in X]. apply (inv_prep _ _ I) in X. congruence. }
  destruct (mark_prepared_ok _ _ _ H2) as (S2 & L2 & P2 & Q2).
  split; [|split; [done|split]].
  - destruct I1 as [A B C D E]. split.
    + by eapply same_world_trans.
    + intros x. rewrite L2, elem_of_app, elem_of_list_singleton. destruct (decide (x = t)) as [->|N]; [naive_solver|].
      rewrite Q2 by done. rewrite B. naive_solver.
    + rewrite L2. apply NoDup_app. split; [done|]. split; [set_solver|]. apply NoDup_singleton.
    + intros x p. rewrite L2, elem_of_app, elem_of_list_singleton. intros [X| ->] Y.
      * apply before_app. by apply D.
      * apply before_last. by apply PA.
    + intros x. rewrite L2, elem_of_app, elem_of_list_singleton. intros [X| ->]; [by apply E|done].
  - exists l1. split; [by rewrite L2, L1, app_assoc|done].
  - intros x X. destruct (decide (x = t)) as [->|N].
    { destruct X as [X|X]; [congruence|]. apply (inv_prep _ _ I) in X. congruence. }
    rewrite <- (K1 x N).
    + revert H2. unfold mark_prepared. destruct (w_types w1 !! t); [|done]. intros ?; simplify_eq. cbn. by rewrite lookup_insert_ne.
    + rewrite <- Q2 by done. tauto.
Qed.

Lemma fresh_inv w : fresh w -> Inv w (World w []).
Proof.
  intros F. split; cbn.
  - apply same_world_refl.
  - intros x. unfold prep. destruct (w !! x) as [b|] eqn:E; [|set_solver]. destruct (F _ _ E) as [-> _]. set_solver.
  - constructor.
  - intros x p X. set_solver.
  - intros x X. set_solver.
Qed.

Lemma prepare_all_inv w0 n : forall ts w w', Inv w0 w -> prepare_all n w ts = Ok w' ->
  Inv w0 w' /\ (forall x, x ∈ w_log w -> x ∈ w_log w') /\
  (forall t b, t ∈ ts -> w0 !! t = Some b -> b_skip b = false -> t ∈ w_log w') /\
  (forall x, x ∈ w_log w' -> x ∈ w_log w \/ exists t, t ∈ ts /\ rtc (inherits w0) t x).
Proof.
  induction ts as [|t ts IH]; intros w w' I H; cbn [prepare_all] in H.
  - simplify_eq. split; [done|]. split; [done|]. split; [set_solver|]. tauto.
  - destruct (w_types w !! t) as [b|] eqn:Eb; [|done]. apply rbind_ok in H as (w1 & H1 & H2).
    destruct (inv_same _ _ I) as [SA _]. destruct (SA _ _ Eb) as (b0 & Eb0 & SD).
    assert (b_skip b = b_skip b0) as SK by (symmetry; apply SD).
    assert (Inv w0 w1 /\ (forall x, x ∈ w_log w -> x ∈ w_log w1) /\ (b_skip b0 = false -> t ∈ w_log w1) /\
      (forall x, x ∈ w_log w1 -> x ∈ w_log w \/ rtc (inherits w0) t x)) as (I1 & L1 & T1 & O1).
    { destruct (b_skip b || b_prepared b) eqn:E.
      - simplify_eq. split; [done|]. split; [done|]. split; [|tauto]. intros X. rewrite SK, X in E. cbn in E.
        apply (inv_prep _ _ I). unfold prep. by rewrite Eb.
      - apply orb_false_iff in E as [_ E].
        destruct (prepare_inv w0 n w t w1 I) as (I1 & _ & (l & L & T) & _); [unfold prep; by rewrite Eb|done|].
        split; [done|]. rewrite L. split; [set_solver|]. split; [set_solver|]. intros x X.
        apply elem_of_app in X as [X|X]; [tauto|]. right. apply elem_of_app in X as [X|X]; [apply tc_rtc; by apply T|].
        apply elem_of_list_singleton in X as ->. apply rtc_refl. }
    destruct (IH w1 w' I1 H2) as (I2 & L2 & T2 & O2). split; [done|]. split; [auto|]. split.
    + intros x bx X Ex Sx. apply elem_of_cons in X as [->|X]; [|by eapply T2]. apply L2, T1. congruence.
    + intros x X. apply O2 in X as [X|(y & Y & Z)].
      * apply O1 in X as [X|X]; [tauto|]. right. exists t. set_solver.
      * right. exists y. set_solver.
Qed.

(** ** What a type takes over *)
Lemma take_symbols_ok es l : forall es', take_symbols es l = Ok es' ->
  es' = es ++ List.filter (fun s => vis_geb (snd s) Protected) l.
Proof.
  revert es. induction l as [|s l IH]; intros es es' H; cbn [take_symbols List.filter] in *; [simplify_eq; by rewrite app_nil_r|].
  destruct (vis_geb (snd s) Protected); [|by apply IH]. destruct (existsb _ es); [done|]. apply IH in H as ->. by rewrite <- app_assoc.
Qed.
Lemma take_symbols_total l : forall es, NoDup (map fst (es ++ List.filter (fun s => vis_geb (snd s) Protected) l)) ->
  exists es', take_symbols es l = Ok es'.
Proof.
  induction l as [|s l IH]; intros es N; cbn [take_symbols List.filter] in *; [eauto|].
  destruct (vis_geb (snd s) Protected) eqn:V; [|by apply IH]. destruct (existsb _ es) eqn:X.
  - exfalso. apply existsb_exists in X as (e & E1 & E2). apply bool_decide_eq_true in E2.
    rewrite map_app in N. apply NoDup_app in N as (_ & N & _). apply (N (fst s)).
    + rewrite <- E2. apply elem_of_list_In. by apply in_map.
    + cbn [map]. set_solver.
  - apply IH. by rewrite <- app_assoc.
Qed.
Definition offers_cons (w : gmap str bp) a l : offers w (a :: l) = match w !! parent_name a with Some p => offered p | None => [] end ++ offers w l.
Proof. done. Qed.

(** What the loop leaves in the type itself. *)
Definition methods_of (w : gmap str bp) (l : list ancestor) (es : list bmethod) : list bmethod :=
  fold_left (fun es a => match w !! parent_name a with Some p => take_methods es (b_meths p) | None => es end) l es.

Definition filled (w0 : gmap str bp) (w : world) (t : str) : Prop :=
  exists b, w_types w !! t = Some b /\ b_esyms b = offers w0 (b_inh b) /\ b_emeths b = methods_of w0 (b_inh b) [].
Definition rec_fill (w0 : gmap str bp) (rec : world -> str -> res world) : Prop :=
  forall w t w', Inv w0 w -> prep (w_types w) t = false ->
    (forall x, rtc (inherits w0) t x -> prep (w_types w) x = false -> w_types w !! x = w0 !! x) ->
    rec w t = Ok w' ->
    forall x, x ∈ w_log w' -> x ∉ w_log w -> filled w0 w' x.

Lemma methods_of_snoc w l a es : methods_of w (l ++ [a]) es =
  match w !! parent_name a with Some p => take_methods (methods_of w l es) (b_meths p) | None => methods_of w l es end.
Proof. unfold methods_of. by rewrite fold_left_app. Qed.
Lemma offers_snoc w l a : offers w (l ++ [a]) = offers w l ++ match w !! parent_name a with Some p => offered p | None => [] end.
Proof. unfold offers. rewrite map_app, concat_app. cbn. by rewrite app_nil_r. Qed.

Definition partly (w0 : gmap str bp) (w : world) (t : str) (done : list ancestor) : Prop :=
  exists b, w_types w !! t = Some b /\ b_esyms b = offers w0 done /\ b_emeths b = methods_of w0 done [].

Lemma take_over_fill w0 w t p w' dn a : same_world w0 (w_types w) -> p = parent_name a -> take_over w t p = Ok w' ->
  partly w0 w t dn -> partly w0 w' t (dn ++ [a]).
Proof.
  intros [SA _] -> H (b & Eb & X & Y). unfold take_over in H. rewrite Eb in H. destruct (w_types w !! parent_name a) as [pb|] eqn:Ep; [|done].
  apply rbind_ok in H as (es & H1 & H2). simplify_eq. destruct (SA _ _ Ep) as (p0 & Ep0 & SD).
  eexists. split; [cbn; by rewrite lookup_insert|]. cbn [b_esyms b_emeths]. rewrite offers_snoc, methods_of_snoc, Ep0.
  apply take_symbols_ok in H1 as ->. destruct SD as (_ & _ & Z & M & _). unfold offered. by rewrite X, Y, Z, M.
Qed.

Lemma filled_keep w0 w w' x : w_types w' !! x = w_types w !! x -> filled w0 w x -> filled w0 w' x.
Proof. unfold filled. by intros ->. Qed.

Lemma prepare_loop_fill w0 rec t : rec_ok w0 rec -> rec_fill w0 rec -> ~ tc (inherits w0) t t -> forall l dn w w',
  Inv w0 w -> t ∉ w_log w -> (forall a, a ∈ l -> inherits w0 t (parent_name a)) ->
  (forall x, tc (inherits w0) t x -> prep (w_types w) x = false -> w_types w !! x = w0 !! x) ->
  partly w0 w t dn -> prepare_loop rec t l w = Ok w' ->
  partly w0 w' t (dn ++ l) /\ (forall x, x ∈ w_log w' -> x ∉ w_log w -> filled w0 w' x).
Proof.
  intros R RF NC. induction l as [|a l IH]; intros dn w w' I NT A U P H.
  - cbn in H. simplify_eq. rewrite app_nil_r. split; [done|]. set_solver.
  - apply prepare_loop_cons in H as (p & w1 & w2 & Ep & _ & H1 & H2 & H3).
    assert (inherits w0 t (parent_name a)) as TA by (apply A; set_solver).
    assert (parent_name a <> t) as PT by (intros E; apply NC; rewrite E in TA; by apply tc_once).
    assert (Inv w0 w1 /\ t ∉ w_log w1 /\ w_types w1 !! t = w_types w !! t /\
            (forall x, x ∈ w_log w1 -> x ∉ w_log w -> filled w0 w1 x) /\ (exists l1, w_log w1 = w_log w ++ l1) /\
            (forall x, prep (w_types w1) x = false \/ x ∈ w_log w -> w_types w1 !! x = w_types w !! x)) as (I1 & NT1 & T1 & F1 & (l1 & L1) & K1).
    { destruct (b_prepared p) eqn:Pp.
      - simplify_eq. split; [done|]. split; [done|]. split; [done|]. split; [set_solver|]. split; [|done]. exists []. by rewrite app_nil_r.
      - assert (prep (w_types w) (parent_name a) = false) as PF by (unfold prep; by rewrite Ep).
        destruct (R w (parent_name a) w1 I PF H1) as (I1 & _ & (l1 & L1 & T1) & K1).
        assert (t ∉ w_log w1) as NT1.
        { rewrite L1. intros X. apply elem_of_app in X as [X|X]; [done|]. apply elem_of_app in X as [X|X].
          - apply T1 in X. apply NC. by eapply tc_l.
          - set_solver. }
        split; [done|]. split; [done|]. split.
        { apply K1. left. destruct (prep (w_types w1) t) eqn:Z; [|done]. by apply (inv_prep _ _ I1) in Z. }
        split; [|split; [eauto|done]]. apply (RF w (parent_name a) w1 I PF); [|done]. intros x X. apply U. by eapply tc_rtc_r; [apply tc_once|]. }
    pose proof (take_over_inv _ _ _ _ _ H2 I1) as I2. destruct (take_over_ok _ _ _ _ H2) as (_ & L2 & P2).
    pose proof (take_over_keeps _ _ _ _ H2) as K2.
    assert (partly w0 w2 t (dn ++ [a])) as P2'.
    { apply (take_over_fill w0 w1 t (parent_name a)); [apply I1|done|done|]. destruct P as (b & Eb & P). exists b. by rewrite T1. }
    destruct (prepare_loop_inv w0 rec t R l w2 w' I2) as (I3 & (l3 & L3 & T3) & _ & K3); [set_solver|done|].
    destruct (IH (dn ++ [a]) w2 w' I2) as (P3 & F3); [by rewrite L2|set_solver| |done|done|].
    { intros x X Y. assert (x <> t) as N by (intros ->; by apply NC). rewrite K2 by done. rewrite P2 in Y. rewrite K1 by tauto. apply U; [done|].
      eapply prep_mono_false; [exact I|exact I1|exact L1|done]. }
    split; [by rewrite <- app_assoc in P3|]. intros x X N. destruct (decide (x ∈ w_log w2)) as [Y|Y]; [|by apply F3].
    assert (x <> t) as NX by (intros ->; by rewrite L2 in Y).
    apply (filled_keep _ w2); [apply K3; tauto|]. apply (filled_keep _ w1); [by apply K2|]. apply F1; [by rewrite <- L2|done].
Qed.

Lemma prepare_fill w0 n : fresh w0 -> rec_fill w0 (prepare n).
Proof.
  intros FR. induction n as [|n IH]; intros w t w' I F U H; [done|]. pose proof (prepare_inv w0 (S n) w t w' I F H) as (I' & NC & _ & K').
  cbn [prepare] in H. destruct (w_types w !! t) as [b|] eqn:Eb; [|done]. apply rbind_ok in H as (w1 & H1 & H2).
  assert (w0 !! t = Some b) as Eb0. { rewrite <- Eb. symmetry. apply U; [apply rtc_refl|done]. }
  assert (t ∉ w_log w) as NT. { intros X. apply (inv_prep _ _ I) in X. congruence. }
  destruct (prepare_loop_inv w0 _ t (prepare_inv w0 n) (b_inh b) w w1 I) as (I1 & (l1 & L1 & T1) & P1 & K1); [|exact H1|].
  { intros a Ha. by apply (inherits_self _ _ b). }
  destruct (prepare_loop_fill w0 _ t (prepare_inv w0 n) IH NC (b_inh b) [] w w1 I NT) as (PP & FF); [| | |exact H1|].
  { intros a Ha. by apply (inherits_self _ _ b). }
  { intros x X. apply U. by apply tc_rtc. }
  { exists b. destruct (FR _ _ Eb0) as (_ & -> & ->). done. }
  assert (t ∉ w_log w1) as NT1. { rewrite L1. intros X. apply elem_of_app in X as [X|X]; [done|]. by apply T1 in X. }
  assert (exists b1, w_types w1 !! t = Some b1 /\ b_inh b1 = b_inh b) as (b1 & Eb1 & IB).
  { destruct (inv_same _ _ I1) as [_ SB]. destruct (SB _ _ Eb0) as (b1 & E1 & SD). exists b1. split; [done|]. symmetry. apply SD. }
  unfold mark_prepared in H2. rewrite Eb1 in H2. simplify_eq. cbn in *.
  intros x X N. destruct (decide (x = t)) as [->|NX].
  - destruct PP as (b2 & E2 & P2 & P3). simplify_eq. eexists. cbn. rewrite lookup_insert. split; [done|]. cbn. by rewrite IB.
  - apply (filled_keep _ w1); [cbn; by rewrite lookup_insert_ne|]. apply FF; set_solver.
Qed.

Lemma prepare_all_fill w0 n : fresh w0 -> forall ts w w', Inv w0 w ->
  (forall x, prep (w_types w) x = false -> w_types w !! x = w0 !! x) -> (forall x, x ∈ w_log w -> filled w0 w x) ->
  prepare_all n w ts = Ok w' -> forall x, x ∈ w_log w' -> filled w0 w' x.
Proof.
  intros FR. induction ts as [|t ts IH]; intros w w' I U F H; cbn [prepare_all] in H.
  - by simplify_eq.
  - destruct (w_types w !! t) as [b|] eqn:Eb; [|done]. apply rbind_ok in H as (w1 & H1 & H2).
    destruct (b_skip b || b_prepared b) eqn:E; [simplify_eq; by eapply IH|].
    apply orb_false_iff in E as [_ E]. assert (prep (w_types w) t = false) as PF by (unfold prep; by rewrite Eb).
    destruct (prepare_inv w0 n w t w1 I PF H1) as (I1 & _ & (l & L & T) & K).
    apply (IH w1); [done| | |done].
    + intros x X. rewrite K by tauto. apply U. eapply prep_mono_false; [exact I|exact I1|exact L|done].
    + intros x X. destruct (decide (x ∈ w_log w)) as [Y|Y].
      * apply (filled_keep _ w); [apply K; tauto|]. by apply F.
      * apply (prepare_fill w0 n FR w t w1 I PF); [|done|done|done]. intros y _. apply U.
Qed.
