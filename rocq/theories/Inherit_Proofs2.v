(** Termination of preparing, acceptance of acyclic types. *)
From stdpp Require Import relations.
From Verif Require Import Base Base_Proofs Scope_Model Proto_Model Inherit_Model Inherit_Spec Inherit_Proofs.

Lemma tc_sub {A} (R1 R2 : A -> A -> Prop) x y : (forall a b, R1 a b -> R2 a b) -> tc R1 x y -> tc R2 x y.
Proof. intros S H. induction H as [x y H|x y z H _ IH]; [by apply tc_once, S|]. eapply tc_l; [by apply S|done]. Qed.

Definition rec_same (rec : world -> str -> res world) : Prop := forall w t w', rec w t = Ok w' -> same_world (w_types w) (w_types w').
Lemma loop_same rec t : rec_same rec -> forall l w w', prepare_loop rec t l w = Ok w' -> same_world (w_types w) (w_types w').
Proof.
  intros R. induction l as [|a l IHl]; intros w w' H.
  - cbn in H. simplify_eq. apply same_world_refl.
  - apply prepare_loop_cons in H as (p & wa & wb & _ & _ & Ha & Hb & Hc).
    apply (same_world_trans _ (w_types wa)).
    { destruct (b_prepared p); [simplify_eq; apply same_world_refl|by eapply R]. }
    apply take_over_ok in Hb as (Hb & _). eapply same_world_trans; [exact Hb|]. by apply IHl.
Qed.
Lemma prepare_same n : rec_same (prepare n).
Proof.
  induction n as [|n IH]; intros w t w' H; [done|]. cbn [prepare] in H. destruct (w_types w !! t) as [b|]; [|done].
  apply rbind_ok in H as (w1 & H1 & H2). apply mark_prepared_ok in H2 as (H2 & _). eapply same_world_trans; [|exact H2].
  by eapply loop_same.
Qed.

Lemma inherits_from_iff w p b t : plain w -> w !! p = Some b -> inherits_from b t = true <-> inherits w p t.
Proof.
  intros PL Ep. unfold inherits_from. rewrite existsb_exists. split.
  - intros (a & A & B). apply bool_decide_eq_true in B. apply elem_of_list_In in A. exists b, a. split; [done|]. split; [done|].
    unfold parent_name. by rewrite (PL _ _ _ Ep A).
  - intros (b' & a & X & Y & Z). simplify_eq. exists a. split; [by apply elem_of_list_In|]. apply bool_decide_eq_true.
    unfold parent_name. by rewrite (PL _ _ _ Ep Y).
Qed.
Lemma inherits_from_same b b' t : same_decl b b' -> inherits_from b t = inherits_from b' t.
Proof. intros (_ & E & _). unfold inherits_from. by rewrite E. Qed.

(** Preparing reports an error that the user sees, or succeeds. *)
Definition reported {A} (r : res A) : Prop :=
  (exists x, r = Ok x) \/ r = Throw "UnknownIdentifier" \/ r = Throw "DesigntimeException" \/ r = Throw "DuplicateIdentifier".
Lemma reported_bind {A B} (r : res A) (f : A -> res B) : reported r -> (forall x, r = Ok x -> reported (f x)) -> reported (rbind r f).
Proof. intros [(x & ->)|[->|[-> | ->]]] H; cbn; [by apply H|..]; unfold reported; tauto. Qed.
Lemma take_symbols_reported l : forall es, reported (take_symbols es l).
Proof.
  induction l as [|s l IH]; intros es; cbn [take_symbols]; [left; eauto|]. destruct (vis_geb _ _); [|apply IH].
  destruct (existsb _ _); [unfold reported; tauto|apply IH].
Qed.
Lemma reported_ok {A} (x : A) : reported (Ok x).
Proof. left. eauto. Qed.

Lemma stack_bound (w : gmap str bp) (t : str) (stack : list str) :
  NoDup stack -> (forall s, s ∈ stack -> is_Some (w !! s)) -> is_Some (w !! t) -> t ∉ stack -> (length stack < size w)%nat.
Proof.
  intros N D T X. assert (NoDup (t :: stack)) as N' by (by constructor).
  assert (list_to_set (t :: stack) ⊆@{gset str} dom w) as SUB.
  { intros x Hx. rewrite elem_of_list_to_set in Hx. apply elem_of_dom. apply elem_of_cons in Hx as [->|Hx]; auto. }
  apply subseteq_size in SUB. rewrite size_list_to_set in SUB by done. rewrite size_dom in SUB. cbn in SUB. lia.
Qed.

Lemma prepare_reported w0 : plain w0 -> short_cycles w0 -> forall n stack w t,
  same_world w0 (w_types w) -> NoDup stack -> (forall s, s ∈ stack -> is_Some (w0 !! s) /\ ~ rtc (inherits w0) t s) ->
  is_Some (w0 !! t) -> (size w0 <= n + length stack)%nat -> reported (prepare n w t).
Proof.
  intros PL SC. induction n as [|n IH]; intros stack w t SW N D T L.
  - exfalso. assert (length stack < size w0)%nat; [|lia]. apply (stack_bound w0 t); [done| |done|].
    + intros s Hs. by apply D.
    + intros X. apply D in X as [_ X]. apply X, rtc_refl.
  - cbn [prepare]. destruct T as [b0 Eb0]. destruct (proj2 SW _ _ Eb0) as (b & Eb & SD). rewrite Eb.
    apply reported_bind.
    + assert (forall a, a ∈ b_inh b -> inherits w0 t (parent_name a)) as A.
      { intros a Ha. apply (inherits_self _ _ b0); [done|]. by destruct SD as (_ & -> & _). }
      clear Eb SD. revert w SW A. induction (b_inh b) as [|a l IHl]; intros w SW A; cbn [prepare_loop]; [apply reported_ok|].
      destruct (w_types w !! parent_name a) as [p|] eqn:Ep; [|unfold reported; tauto].
      destruct (inherits_from p t) eqn:IF; [unfold reported; tauto|].
      destruct (proj1 SW _ _ Ep) as (p0 & Ep0 & SDp).
      assert (inherits w0 t (parent_name a)) as TA by (apply A; set_solver).
      assert (~ rtc (inherits w0) (parent_name a) t) as NB.
      { intros X. apply SC in X; [|done]. apply (inherits_from_iff _ _ _ _ PL Ep0) in X.
        rewrite (inherits_from_same _ _ _ SDp) in X. congruence. }
      apply reported_bind; [|intros w1 H1; apply reported_bind].
      * destruct (b_prepared p); [apply reported_ok|]. apply (IH (t :: stack)).
        -- done.
        -- constructor; [|done]. intros X. apply D in X as [_ X]. apply X, rtc_refl.
        -- intros s Hs. apply elem_of_cons in Hs as [->|Hs]; [split; [eauto|done]|]. split; [by apply D|]. intros X.
           apply D in Hs as [_ Hs]. apply Hs. by eapply rtc_l.
        -- eauto.
        -- cbn [length]. lia.
      * assert (same_world w0 (w_types w1)) as S1.
        { destruct (b_prepared p); [by simplify_eq|]. apply prepare_same in H1. by eapply same_world_trans. }
        unfold take_over. destruct (proj2 S1 _ _ Eb0) as (b1 & -> & _). destruct (proj2 S1 _ _ Ep0) as (p1 & -> & _).
        apply reported_bind; [apply take_symbols_reported|]. intros. apply reported_ok.
      * intros w2 H2. apply IHl; [|set_solver]. apply take_over_ok in H2 as (H2 & _).
        destruct (b_prepared p); [simplify_eq; by eapply same_world_trans|]. apply prepare_same in H1.
        eapply same_world_trans; [exact SW|]. eapply same_world_trans; [exact H1|done].
    + intros w1 H1. assert (same_world w0 (w_types w1)) as S1.
      { eapply same_world_trans; [exact SW|]. eapply loop_same; [apply prepare_same|exact H1]. }
      unfold mark_prepared. destruct (proj2 S1 _ _ Eb0) as (b1 & -> & _). apply reported_ok.
Qed.

(** ** Acyclic types are accepted *)
Lemma prepare_accepts w0 : plain w0 -> acyclic w0 -> all_known w0 -> no_clash w0 -> fresh w0 -> forall n stack w t,
  Inv w0 w -> prep (w_types w) t = false ->
  (forall x, rtc (inherits w0) t x -> prep (w_types w) x = false -> w_types w !! x = w0 !! x) ->
  NoDup stack -> (forall s, s ∈ stack -> is_Some (w0 !! s) /\ ~ rtc (inherits w0) t s) ->
  is_Some (w0 !! t) -> (size w0 <= n + length stack)%nat -> exists w', prepare n w t = Ok w'.
Proof.
  intros PL AC AK NCl FR. induction n as [|n IH]; intros stack w t I PF U N D T L.
  - exfalso. assert (length stack < size w0)%nat; [|lia]. apply (stack_bound w0 t); [done| |done|].
    + intros s Hs. by apply D.
    + intros X. apply D in X as [_ X]. apply X, rtc_refl.
  - cbn [prepare]. destruct T as [b0 Eb0].
    assert (w_types w !! t = Some b0) as Eb. { rewrite <- Eb0. apply U; [apply rtc_refl|done]. }
    rewrite Eb.
    assert (t ∉ w_log w) as NT. { intros X. apply (inv_prep _ _ I) in X. congruence. }
    assert (exists w1, prepare_loop (prepare n) t (b_inh b0) w = Ok w1) as (w1 & H1).
    { assert (forall l dn w, dn ++ l = b_inh b0 -> Inv w0 w -> t ∉ w_log w ->
        (forall x, tc (inherits w0) t x -> prep (w_types w) x = false -> w_types w !! x = w0 !! x) ->
        partly w0 w t dn -> exists w1, prepare_loop (prepare n) t l w = Ok w1) as G.
      2:{ apply (G (b_inh b0) [] w); [done|done|done| |].
          - intros x X. apply U. by apply tc_rtc.
          - exists b0. destruct (FR _ _ Eb0) as (_ & -> & ->). done. }
      clear w I PF U Eb NT. induction l as [|a l IHl]; intros dn w EL I NT U P; cbn [prepare_loop]; [eauto|].
      assert (a ∈ b_inh b0) as Ain by (rewrite <- EL; set_solver).
      assert (inherits w0 t (parent_name a)) as TA by (by apply (inherits_self _ _ b0)).
      destruct (AK _ _ _ Eb0 Ain) as [p0 Ep0]. destruct (proj2 (inv_same _ _ I) _ _ Ep0) as (p & Ep & SDp). rewrite Ep.
      destruct (inherits_from p t) eqn:IF.
      { exfalso. rewrite <- (inherits_from_same _ _ _ SDp) in IF. apply (inherits_from_iff _ _ _ _ PL Ep0) in IF.
        apply (AC t). eapply tc_l; [exact TA|]. by apply tc_once. }
      assert (exists w1, (if b_prepared p then Ok w else prepare n w (parent_name a)) = Ok w1 /\ Inv w0 w1 /\ t ∉ w_log w1 /\
              w_types w1 !! t = w_types w !! t /\ (exists l1, w_log w1 = w_log w ++ l1) /\
              (forall x, prep (w_types w1) x = false \/ x ∈ w_log w -> w_types w1 !! x = w_types w !! x)) as (w1 & H1 & I1 & NT1 & T1 & (l1 & L1) & K1).
      { destruct (b_prepared p) eqn:Pp.
        - exists w. split; [done|]. split; [done|]. split; [done|]. split; [done|]. split; [exists []; by rewrite app_nil_r|done].
        - assert (prep (w_types w) (parent_name a) = false) as PF by (unfold prep; by rewrite Ep).
          destruct (IH (t :: stack) w (parent_name a)) as (w1 & H1); [done|done| | | |eauto|cbn [length]; lia|].
          + intros x X. apply U. by eapply tc_rtc_r; [apply tc_once|].
          + constructor; [|done]. intros X. apply D in X as [_ X]. apply X, rtc_refl.
          + intros s Hs. apply elem_of_cons in Hs as [->|Hs].
            * split; [eauto|]. intros X. apply (AC t). eapply tc_rtc_r; [by apply tc_once|done].
            * split; [by apply D|]. intros X. apply D in Hs as [_ Hs]. apply Hs. by eapply rtc_l.
          + exists w1. destruct (prepare_inv w0 n w (parent_name a) w1 I PF H1) as (I1 & _ & (l1 & L1 & T1) & K1).
            assert (t ∉ w_log w1) as NT1.
            { rewrite L1. intros X. apply elem_of_app in X as [X|X]; [done|]. apply elem_of_app in X as [X|X].
              - apply T1 in X. apply (AC t). by eapply tc_l.
              - apply elem_of_list_singleton in X. apply (AC t). rewrite X at 2. by apply tc_once. }
            split; [done|]. split; [done|]. split; [done|]. split; [|split; [eauto|done]].
            apply K1. left. destruct (prep (w_types w1) t) eqn:Z; [|done]. by apply (inv_prep _ _ I1) in Z. }
      rewrite H1. cbn [rbind].
      assert (exists w2, take_over w1 t (parent_name a) = Ok w2) as (w2 & H2).
      { unfold take_over. destruct P as (b & Eb & X & Y). rewrite T1, Eb.
        destruct (proj2 (inv_same _ _ I1) _ _ Ep0) as (p1 & Ep1 & SD1). rewrite Ep1.
        destruct (take_symbols_total (b_syms p1) (b_esyms b)) as (es & ->); [|cbn; eauto].
        specialize (NCl _ _ Eb0). rewrite <- EL in NCl. rewrite X.
        destruct SD1 as (_ & _ & SY & _). rewrite <- SY. fold (offered p0).
        unfold offers in NCl |- *. rewrite map_app, concat_app in NCl. cbn [map concat] in NCl. rewrite Ep0, app_assoc, map_app in NCl.
        by apply NoDup_app in NCl as (NCl & _). }
      rewrite H2. cbn [rbind]. pose proof (take_over_inv _ _ _ _ _ H2 I1) as I2. destruct (take_over_ok _ _ _ _ H2) as (_ & L2 & P2).
      pose proof (take_over_keeps _ _ _ _ H2) as K2.
      apply (IHl (dn ++ [a])); [by rewrite <- app_assoc|done|by rewrite L2| |].
      - intros x X Y. assert (x <> t) as NX by (intros ->; by apply (AC t)). rewrite K2 by done. rewrite P2 in Y. rewrite K1 by tauto. apply U; [done|].
        eapply prep_mono_false; [exact I|exact I1|exact L1|done].
      - apply (take_over_fill w0 w1 t (parent_name a)); [apply I1|done|done|]. destruct P as (b & Eb & P). exists b. by rewrite T1. }
    rewrite H1. cbn [rbind]. pose proof (loop_same _ _ (prepare_same n) _ _ _ H1) as S1. unfold mark_prepared.
    destruct (proj2 S1 _ _ Eb) as (b1 & -> & _). eauto.
Qed.

Lemma prepare_all_accepts w0 n : plain w0 -> acyclic w0 -> all_known w0 -> no_clash w0 -> fresh w0 -> (size w0 <= n)%nat ->
  forall ts w, (forall t, t ∈ ts -> is_Some (w0 !! t)) -> Inv w0 w ->
  (forall x, prep (w_types w) x = false -> w_types w !! x = w0 !! x) -> exists w', prepare_all n w ts = Ok w'.
Proof.
  intros PL AC AK NCl FR L. induction ts as [|t ts IH]; intros w K I U; cbn [prepare_all]; [eauto|].
  destruct (K t) as [b0 Eb0]; [set_solver|]. destruct (proj2 (inv_same _ _ I) _ _ Eb0) as (b & Eb & SD). rewrite Eb.
  destruct (b_skip b || b_prepared b) eqn:E; cbn [rbind]; [apply IH; [set_solver|done|done]|].
  apply orb_false_iff in E as [_ E]. assert (prep (w_types w) t = false) as PF by (unfold prep; by rewrite Eb).
  destruct (prepare_accepts w0 PL AC AK NCl FR n [] w t) as (w1 & H1); [done|done|auto|constructor|set_solver|eauto|cbn; lia|].
  rewrite H1. cbn [rbind]. destruct (prepare_inv w0 n w t w1 I PF H1) as (I1 & _ & (l & Lg & T) & KK).
  apply IH; [set_solver|done|]. intros x X. rewrite KK by tauto. apply U. eapply prep_mono_false; [exact I|exact I1|exact Lg|done].
Qed.
Lemma prepare_all_reported w0 n : plain w0 -> short_cycles w0 -> (size w0 <= n)%nat ->
  forall ts w, (forall t, t ∈ ts -> is_Some (w0 !! t)) -> same_world w0 (w_types w) -> reported (prepare_all n w ts).
Proof.
  intros PL SC L. induction ts as [|t ts IH]; intros w K SW; cbn [prepare_all]; [apply reported_ok|].
  destruct (K t) as [b0 Eb0]; [set_solver|]. destruct (proj2 SW _ _ Eb0) as (b & Eb & SD). rewrite Eb.
  apply reported_bind.
  - destruct (_ || _); [apply reported_ok|]. apply (prepare_reported w0 PL SC n []); [done|constructor|set_solver|eauto|cbn; lia].
  - intros w1 H1. apply IH; [set_solver|]. destruct (_ || _); [by simplify_eq|]. eapply same_world_trans; [exact SW|]. by eapply prepare_same.
Qed.

(** ** The symbol base *)
Lemma with_base_inh w b : b_inh (with_base w b) = b_inh b.
Proof. unfold with_base. destruct (List.find _ _); [|done]. by destruct (w !! _). Qed.
Lemma with_base_vis w b : b_vis (with_base w b) = b_vis b.
Proof. unfold with_base. destruct (List.find _ _); [|done]. by destruct (w !! _). Qed.
Lemma with_base_skip w b : b_skip (with_base w b) = b_skip b.
Proof. unfold with_base. destruct (List.find _ _); [|done]. by destruct (w !! _). Qed.
Lemma with_base_fresh w b : b_prepared (with_base w b) = b_prepared b /\ b_esyms (with_base w b) = b_esyms b /\ b_emeths (with_base w b) = b_emeths b /\ b_meths (with_base w b) = b_meths b.
Proof. unfold with_base. destruct (List.find _ _); [|done]. by destruct (w !! _). Qed.
Lemma based_lookup w t : based w !! t = with_base w <$> w !! t.
Proof. unfold based. by rewrite lookup_fmap. Qed.
Lemma based_inherits w t p : inherits (based w) t p <-> inherits w t p.
Proof.
  split.
  - intros (b & a & H & I & E). rewrite based_lookup in H. destruct (w !! t) as [b0|] eqn:E0; [|done]. cbn in H. simplify_eq.
    exists b0, a. by rewrite with_base_inh in I.
  - intros (b & a & H & I & E). exists (with_base w b), a. rewrite based_lookup, H, with_base_inh. done.
Qed.

Lemma filter_find_none {A} (f : A -> bool) l : List.filter f l = [] -> List.find f l = None.
Proof. induction l as [|x l IH]; cbn; [done|]. destruct (f x); [done|apply IH]. Qed.

(** Values of the map that the pass reads: kinds stay, only symbols grow. *)
Definition readable (w w' : gmap str bp) : Prop :=
  forall t, match w !! t, w' !! t with
            | Some b, Some b' => b_vis b = b_vis b'
            | None, None => True
            | _, _ => False
            end.
Lemma define_base_none w t l b : w !! t = Some b -> (forall a, a ∈ l -> is_Some (w !! parent_name a)) ->
  (forall a, a ∈ l -> a_type a <> AUnknown) -> List.filter is_extends l = [] -> define_base w t l = Ok w.
Proof.
  intros Eb. induction l as [|a l IH]; intros K N F; cbn [define_base]; [done|].
  destruct (K a) as [p ->]; [set_solver|]. rewrite Eb. cbn [List.filter] in F. unfold is_extends in F.
  destruct (a_type a) eqn:T; try done; [exfalso; apply (N a); [set_solver|done]|..]; apply IH; set_solver.
Qed.
Lemma define_base_ok w w' t l b : w' !! t = Some b -> readable w w' -> (forall a, a ∈ l -> is_Some (w !! parent_name a)) ->
  (forall a, a ∈ l -> a_type a <> AUnknown) -> (length (List.filter is_extends l) <= 1)%nat -> base_name ∉ map fst (b_syms b) ->
  define_base w' t l = Ok (match List.find is_extends l with
    | Some a => match w !! parent_name a with
                | Some p => <[t := BP (b_name b) (b_inh b) (b_syms b ++ [(base_name, b_vis p)]) (b_meths b) (b_esyms b) (b_emeths b)
                                      (b_prepared b) (b_skip b) (b_vis b)]> w'
                | None => w' end
    | None => w' end).
Proof.
  intros Eb R. induction l as [|a l IH]; intros K N F NB; cbn [define_base List.find]; [done|].
  destruct (K a) as [p Ep]; [set_solver|]. pose proof (R (parent_name a)) as Ra. rewrite Ep in Ra.
  destruct (w' !! parent_name a) as [p'|] eqn:Ep'; [|done]. rewrite Eb. cbn [List.filter] in F.
  destruct (a_type a) eqn:T; unfold is_extends in F |- * at 1; rewrite T in F |- *.
  - exfalso. apply (N a); [set_solver|done].
  - destruct (existsb (fun s => str_eqb (fst s) base_name) (b_syms b)) eqn:X.
    { exfalso. apply existsb_exists in X as (s & S1 & S2). apply bool_decide_eq_true in S2. apply NB. rewrite <- S2.
      apply elem_of_list_In. by apply in_map. }
    rewrite Ep, <- Ra. cbn [length] in F. fold is_extends in F.
    eapply define_base_none; [by rewrite lookup_insert| | |].
    + intros a' Ha. destruct (decide (t = parent_name a')) as [Ea|Na]; [rewrite <- Ea, lookup_insert; by eexists|]. rewrite lookup_insert_ne by done.
      destruct (K a') as [q Eq]; [set_solver|]. pose proof (R (parent_name a')) as Rq. rewrite Eq in Rq. destruct (w' !! parent_name a'); [by eexists|done].
    + set_solver.
    + destruct (List.filter is_extends l); [done|cbn in F; lia].
  - fold is_extends. apply IH; [set_solver|set_solver|done|done].
  - fold is_extends. apply IH; [set_solver|set_solver|done|done].
  - fold is_extends. apply IH; [set_solver|set_solver|done|done].
Qed.

Lemma define_bases_ok w : all_known w -> well_formed w -> forall ts w', NoDup ts ->
  (forall t, t ∈ ts -> w' !! t = w !! t /\ is_Some (w !! t)) -> (forall t, t ∉ ts -> w' !! t = based w !! t) ->
  define_bases w' ts = Ok (based w).
Proof.
  intros AK WF. induction ts as [|t ts IH]; intros w' ND A B; cbn [define_bases].
  - f_equal. apply map_eq. intros t. apply B. set_solver.
  - destruct (A t) as [E [b Eb]]; [set_solver|]. rewrite E, Eb. destruct (WF _ _ Eb) as (W1 & W2 & W3).
    assert (readable w w') as R.
    { intros x. destruct (decide (x ∈ t :: ts)) as [X|X].
      - destruct (A x X) as [-> [bx ->]]. done.
      - rewrite (B x X), based_lookup. destruct (w !! x); cbn; [|done]. by rewrite with_base_vis. }
    rewrite (define_base_ok w w' t (b_inh b) b); [|congruence|done| |done|done|done]; [|intros a Ha; by apply (AK t b)].
    cbn [rbind]. inversion ND; subst. apply IH; [done| |].
    + intros x X. assert (t <> x) as N by (intros ->; done). destruct (A x) as [Ex Sx]; [set_solver|].
      destruct (List.find _ _); [|done]. destruct (w !! parent_name _); [|done]. by rewrite lookup_insert_ne.
    + intros x X. destruct (decide (t = x)) as [<-|N].
      * rewrite based_lookup, Eb. cbn [fmap option_fmap option_map]. unfold with_base. destruct (List.find _ _) as [a|]; [|congruence].
        destruct (w !! parent_name a); [|congruence]. by rewrite lookup_insert.
      * rewrite <- B by set_solver. destruct (List.find _ _); [|done]. destruct (w !! parent_name _); [|done]. by rewrite lookup_insert_ne.
Qed.

(** Whatever the outcome of that pass: the inheritance stays. *)
Definition same_inh (w w' : gmap str bp) : Prop :=
  forall t, match w !! t, w' !! t with
            | Some b, Some b' => b_inh b = b_inh b' /\ b_skip b = b_skip b' /\ b_prepared b = b_prepared b' /\ b_esyms b = b_esyms b' /\ b_emeths b = b_emeths b' /\ b_meths b = b_meths b'
            | None, None => True
            | _, _ => False
            end.
Lemma same_inh_refl w : same_inh w w.
Proof. intros t. by destruct (w !! t). Qed.
Lemma same_inh_trans a b c : same_inh a b -> same_inh b c -> same_inh a c.
Proof.
  intros X Y t. specialize (X t). specialize (Y t). destruct (a !! t), (b !! t), (c !! t); try done.
  destruct X as (? & ? & ? & ? & ? & ?), Y as (? & ? & ? & ? & ? & ?). repeat split; congruence.
Qed.
Lemma define_base_inh t l : forall w w', define_base w t l = Ok w' -> same_inh w w'.
Proof.
  induction l as [|a l IH]; intros w w' H; cbn [define_base] in H; [simplify_eq; apply same_inh_refl|].
  destruct (w !! parent_name a) as [p|]; [|done]. destruct (w !! t) as [b|] eqn:Eb; [|done].
  destruct (a_type a); try done; try (by apply IH). destruct (existsb _ _); [done|]. apply IH in H.
  eapply same_inh_trans; [|exact H]. intros x. destruct (decide (t = x)) as [<-|N]; [by rewrite lookup_insert, Eb|].
  rewrite lookup_insert_ne by done. by destruct (w !! x).
Qed.
Lemma define_bases_inh ts : forall w w', define_bases w ts = Ok w' -> same_inh w w'.
Proof.
  induction ts as [|t ts IH]; intros w w' H; cbn [define_bases] in H; [simplify_eq; apply same_inh_refl|].
  destruct (w !! t) as [b|]; [|done]. apply rbind_ok in H as (w1 & H1 & H2). eapply same_inh_trans; [by eapply define_base_inh|by apply IH].
Qed.
Lemma same_inh_inherits w w' t p : same_inh w w' -> inherits w t p <-> inherits w' t p.
Proof.
  intros S. specialize (S t). split; intros (b & a & H & I & E).
  - rewrite H in S. destruct (w' !! t) as [b'|] eqn:E'; [|done]. exists b', a. destruct S as (<- & _). done.
  - rewrite H in S. destruct (w !! t) as [b'|] eqn:E'; [|done]. exists b', a. destruct S as (-> & _). done.
Qed.
Lemma same_inh_fresh w w' : same_inh w w' -> fresh w -> fresh w'.
Proof.
  intros S F t b E. specialize (S t). rewrite E in S. destruct (w !! t) as [b0|] eqn:E0; [|done].
  destruct (F _ _ E0) as (A & B & C). destruct S as (_ & _ & <- & <- & <- & _). done.
Qed.
