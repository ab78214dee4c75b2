From stdpp Require Import relations sorting.
From Verif Require Import Base Memory_Model Memory_Spec Memory_Proofs Memory_Graph.

(** ** Histories of programs *)
Definition made (o : gop) : nat := match o with GNew _ n _ => S n | _ => 0 end.

Lemma rem_top nv K fuel : (K < fuel)%nat -> RemOk nv K ∅ (mem_remove fuel).
Proof. intros H. apply remove_ok. rewrite size_empty. lia. Qed.

Definition StepGood (nv : nat) (m : mem) (o : gop) (r : res mem) : Prop :=
  (exists m', r = Ok m' /\ Inv nv m' [] ∅ /\ (size (heap m') <= S (size (heap m)))%nat /\
     (length (all_slots m') <= length (all_slots m) + made o)%nat /\ (next m <= next m')%N) \/
  (exists e, r = Throw e /\ String.eqb e "invalid access" = false).

Lemma from_assign nv K fuel m a s v o :
  (K < fuel)%nat -> (size (heap m) <= K)%nat -> Inv nv m [] ∅ ->
  (v = 0%N \/ exists e, heap m !! v = Some e) ->
  StepGood nv m o (assign_ref (mem_remove fuel) m a s v).
Proof.
  intros HK Hsz HI Hv. destruct (read_slot m a s) as [old|] eqn:Hr.
  - left. destruct (assign_ok nv K ∅ (mem_remove fuel) m a s v old) as (m'&?&?&HF); auto.
    { by apply rem_top. }
    { destruct Hv as [?|[e ?]]; [by left|right]. exists e. split; [done|set_solver]. }
    exists m'. split; [done|]. split; [done|].
    pose proof (dom_size m m' (fx_dom _ _ _ _ HF)). pose proof (fx_len _ _ _ _ HF).
    rewrite (fx_next _ _ _ _ HF). split_and!; lia.
  - right. unfold assign_ref. rewrite Hr. eexists; split; done.
Qed.

Lemma var_live nv m x v : Inv nv m [] ∅ -> vars m !! x = Some v ->
  v = 0%N \/ exists e, heap m !! v = Some e.
Proof.
  intros HI Hv. destruct (read_live nv m ∅ 0%N (SVar x) v HI Hv) as [?|(e&?&_)]; eauto.
Qed.

Lemma new_inv nv m n d a m1 :
  Inv nv m [] ∅ -> (0 < next m)%N -> mem_new m n d = Ok (a, m1) -> Forall (dop_ok nv n) d ->
  (N.of_nat (length (all_slots m) + n) + 1 < two32)%N ->
  a = next m /\ InvX a nv m1 [] ∅ /\ heap m1 !! a = Some (Entry 0 (replicate n 0%N) d) /\
  (size (heap m1) = S (size (heap m)))%nat /\ vars m1 = vars m /\ a <> 0%N /\
  (length (all_slots m1) = length (all_slots m) + n)%nat /\ next m1 = (next m + 1)%N.
Proof.
  intros HI Hn0 Hnew Hd Hb. unfold mem_new in Hnew.
  destruct (4294967295 <=? next m)%N; [done|]. injection Hnew as Ha Hm1. subst a.
  assert (Hfresh : heap m !! next m = None).
  { destruct (heap m !! next m) as [e|] eqn:E; [|done]. destruct (i_cnt HI _ _ E). lia. }
  assert (HR : forall b, b <> 0%N -> refs_to m1 b = refs_to m b).
  { intros b Hb0. rewrite !refs_to_tm, !(tm_eq (cocc b) (cocc_app b)). subst m1. cbn [heap vars].
    rewrite (hm_insert_None (cocc b) (cocc_app b) (cocc_perm b)) by done. cbn [fields].
    assert (cocc b (replicate n 0%N) = 0%nat); [|lia].
    destruct (cocc b (replicate n 0%N)) eqn:E; [done|]. exfalso.
    assert (b ∈ replicate n 0%N) as Hin by (apply cocc_pos; lia).
    apply elem_of_replicate in Hin as [? _]. done. }
  assert (HL : length (all_slots m1) = (length (all_slots m) + n)%nat).
  { change (tm (@length addr) m1 = (tm (@length addr) m + n)%nat).
    rewrite !(tm_eq (@length addr) (@app_length addr)). subst m1. cbn [heap vars].
    rewrite (hm_insert_None (@length addr) (@app_length addr) len_perm) by done. cbn [fields].
    rewrite replicate_length. lia. }
  split; [done|]. split; [|subst m1; cbn [heap vars]; rewrite lookup_insert, map_size_insert_None by done; split_and!; done || lia].
  assert (Hin : forall b e, heap m1 !! b = Some e ->
     (b = next m /\ e = Entry 0 (replicate n 0%N) d) \/ (b <> next m /\ heap m !! b = Some e)).
  { intros b e. subst m1. cbn. rewrite lookup_insert_Some. naive_solver. }
  constructor.
  - intros b e He. destruct (Hin b e He) as [[-> ->]|[Hne Hm]].
    + subst m1. cbn [next count]. split; [lia|]. split; [lia|].
      rewrite HR by lia. destruct (i_none HI _ Hfresh) as [-> _]; [lia|]. done.
    + destruct (i_cnt HI b e Hm) as (?&?&?). rewrite HR by done. split; [done|].
      split; [subst m1; cbn [next]; lia|done].
  - intros b He Hb0. rewrite HR by done. subst m1. cbn in He. apply lookup_insert_None in He as [He _].
    apply (i_none HI b He Hb0).
  - set_solver.
  - intros b e He Hnd Hbx. destruct (Hin b e He) as [[-> ->]|[Hne Hm]]; [done|].
    eapply (i_pos HI b e Hm Hnd). by destruct (i_cnt HI b e Hm).
  - intros b e He. destruct (Hin b e He) as [[-> ->]|[Hne Hm]].
    + cbn. by rewrite replicate_length.
    + by apply (i_dtor HI b).
  - subst m1. apply (i_nv HI).
  - rewrite HL. done.
  - subst m1. apply (i_nodup HI).
  - intros b. subst m1. cbn [log next heap]. rewrite (i_log HI b), lookup_insert_None.
    split.
    + intros (?&?&[H|?]); [|set_solver]. split_and!; [done|lia|]. left. split; [done|lia].
    + intros (?&?&[[H1 H2]|?]); [|set_solver]. split_and!; [done|lia|by left].
Qed.

Lemma gstep_good nv fuel m o :
  Inv nv m [] ∅ -> (0 < next m)%N -> gop_ok nv o -> (S (size (heap m)) < fuel)%nat ->
  (N.of_nat (length (all_slots m) + made o) + 1 < two32)%N ->
  StepGood nv m o (gstep fuel m o).
Proof.
  intros HI Hn0 Hok Hf Hb.
  assert (Hthrow : forall e, String.eqb e "invalid access" = false -> StepGood nv m o (Throw e)).
  { intros e He. right. eauto. }
  assert (Hdr : forall x, (exists e, deref m x = Throw e /\ String.eqb e "invalid access" = false) \/
     exists a, deref m x = Ok a /\ a <> 0%N /\ is_Some (heap m !! a)).
  { intros x. unfold deref, var_ref. destruct (vars m !! x) as [a|] eqn:E; [|left; eauto]. cbn [rbind].
    unfold valid. destruct (N.eqb_spec a 0); cbn [negb]; [left; eauto|]. right.
    destruct (var_live nv m x a HI E) as [?|[e He]]; [done|]. rewrite He. eauto. }
  assert (Hvr : forall x, (exists e, var_ref m x = Throw e /\ String.eqb e "invalid access" = false) \/
     exists a, var_ref m x = Ok a /\ (a = 0%N \/ exists e, heap m !! a = Some e)).
  { intros x. unfold var_ref. destruct (vars m !! x) as [a|] eqn:E; [|left; eauto]. right.
    exists a. split; [done|]. by eapply var_live. }
  destruct o as [x n d|x y|x|x i y|x i|x y i]; cbn [gstep].
  - destruct (vars m !! x) as [old|] eqn:Hold; unfold var_ref; rewrite Hold; cbn [rbind]; [|by apply Hthrow].
    destruct (mem_new m n d) as [[a m1]| | |] eqn:Hnew; cbn [rbind fst snd].
    + destruct (new_inv nv m n d a m1) as (Ha&HI1&Ha1&Hsz1&Hv1&Ha0&HL1&Hnx1); auto.
      { cbn in Hb. lia. }
      left. destruct (write_add_inv a nv m1 ∅ a (SVar x) a old) as (m2&Hadd&HI2&HF2); auto.
      { cbn. by rewrite Hv1. }
      { right. eexists; split; [done|set_solver]. }
      unfold assign_ref. cbn [read_slot]. rewrite Hv1, Hold. rewrite Hadd. cbn [rbind].
      pose proof (dom_size m1 m2 (fx_dom _ _ _ _ HF2)) as Hd2.
      pose proof (fx_len _ _ _ _ HF2) as Hl2. pose proof (fx_next _ _ _ _ HF2) as Hn2.
      unfold pend in HI2. destruct (valid old) eqn:Hvo.
      * destruct (rem_top nv (S (size (heap m))) fuel Hf m2 old HI2) as (m3&Hm3&HI3&HF3).
        { unfold valid in Hvo. destruct (N.eqb_spec old 0); done. }
        { lia. }
        exists m3. split; [done|]. split; [done|].
        pose proof (dom_size m2 m3 (fr_dom _ _ _ HF3)). pose proof (fr_len _ _ _ HF3).
        pose proof (fr_next _ _ _ HF3). cbn [made]. split_and!; lia.
      * exists m2. split; [done|]. split; [done|]. cbn [made]. split_and!; lia.
    + unfold mem_new in Hnew. destruct (4294967295 <=? next m)%N; [|done]. injection Hnew as <-. by apply Hthrow.
    + unfold mem_new in Hnew. by destruct (4294967295 <=? next m)%N.
    + unfold mem_new in Hnew. by destruct (4294967295 <=? next m)%N.
  - destruct (Hvr y) as [(e&->&He)|(v&->&Hv)]; cbn [rbind]; [by apply Hthrow|].
    apply (from_assign nv (size (heap m))); auto; lia.
  - apply (from_assign nv (size (heap m))); auto; lia.
  - destruct (Hdr x) as [(e&->&He)|(a&->&_&_)]; cbn [rbind]; [by apply Hthrow|].
    destruct (Hvr y) as [(e&->&He)|(v&->&Hv)]; cbn [rbind]; [by apply Hthrow|].
    apply (from_assign nv (size (heap m))); auto; lia.
  - destruct (Hdr x) as [(e&->&He)|(a&->&_&_)]; cbn [rbind]; [by apply Hthrow|].
    apply (from_assign nv (size (heap m))); auto; lia.
  - destruct (Hdr y) as [(e&->&He)|(a&->&_&_)]; cbn [rbind]; [by apply Hthrow|].
    unfold field_ref. destruct (read_slot m a (SField i)) as [v|] eqn:Hr; cbn [rbind]; [|by apply Hthrow].
    apply (from_assign nv (size (heap m))); auto; [lia|].
    destruct (read_live nv m ∅ a (SField i) v HI Hr) as [?|(e&?&_)]; eauto.
Qed.

Lemma grun_good nv fuel os : forall m,
  Inv nv m [] ∅ -> (0 < next m)%N -> Forall (gop_ok nv) os -> (size (heap m) + length os < fuel)%nat ->
  (N.of_nat (length (all_slots m) + slots_made os) + 1 < two32)%N ->
  exists m', grun fuel m os = Ok m' /\ Inv nv m' [] ∅ /\ (next m <= next m')%N.
Proof.
  induction os as [|o os IH]; intros m HI Hn0 Hok Hf Hb; cbn [grun].
  { exists m. split; [done|]. split; [done|]. lia. }
  inversion Hok as [|? ? Ho Hos]; subst. cbn [length] in Hf.
  assert (Hsm : slots_made (o :: os) = (made o + slots_made os)%nat) by (destruct o; done).
  rewrite Hsm in Hb.
  destruct (gstep_good nv fuel m o HI Hn0 Ho) as [(m1&->&HI1&Hs1&Hl1&Hx1)|(e&->&->)]; [lia..| |].
  - destruct (IH m1) as (m2&?&?&?); auto; [lia..|]. exists m2. split_and!; auto. lia.
  - destruct (IH m) as (m2&?&?&?); auto; [lia..|]. exists m2. split_and!; auto.
Qed.

Lemma init_inv nv : (N.of_nat nv + 1 < two32)%N -> Inv nv (init nv) [] ∅.
Proof.
  intros Hb.
  assert (Hs : all_slots (init nv) = replicate nv 0%N).
  { unfold all_slots, init. cbn [vars heap]. rewrite map_to_list_empty. cbn. by rewrite app_nil_r. }
  constructor; cbn [heap init vars next log].
  - intros b e He. by rewrite lookup_empty in He.
  - intros b _ Hb0. split; [|done]. unfold refs_to. rewrite Hs.
    change (cocc b (replicate nv 0%N) = 0%nat). destruct (cocc b (replicate nv 0%N)) eqn:E; [done|]. exfalso.
    assert (b ∈ replicate nv 0%N) as Hin by (apply cocc_pos; lia).
    apply elem_of_replicate in Hin as [? _]. done.
  - set_solver.
  - intros b e He. by rewrite lookup_empty in He.
  - intros b e He. by rewrite lookup_empty in He.
  - apply replicate_length.
  - rewrite Hs, replicate_length. done.
  - constructor.
  - intros b. rewrite elem_of_nil. split; [done|]. intros (?&?&_). lia.
Qed.

Lemma init_slots nv : length (all_slots (init nv)) = nv.
Proof.
  unfold all_slots, init. cbn [vars heap]. rewrite map_to_list_empty. cbn.
  by rewrite app_nil_r, replicate_length.
Qed.

Lemma grun_inv nv fuel os :
  Forall (gop_ok nv) os -> (length os < fuel)%nat -> (N.of_nat (nv + slots_made os) + 1 < two32)%N ->
  exists m, grun fuel (init nv) os = Ok m /\ Inv nv m [] ∅.
Proof.
  intros Hok Hf Hb. destruct (grun_good nv fuel os (init nv)) as (m&?&?&_); auto.
  - apply init_inv. lia.
  - cbn. lia.
  - by rewrite init_slots.
  - eauto.
Qed.

(** Consequences of the invariant in the specification's words. *)
Lemma inv_safe nv m : Inv nv m [] ∅ ->
  (forall a, a ∈ all_slots m -> a <> 0%N -> live m a) /\
  (forall a e, heap m !! a = Some e -> N.to_nat (count e) = refs_to m a /\ (0 < refs_to m a)%nat) /\
  NoDup (log m) /\
  (forall a, a ∈ log m <-> (0 < a < next m)%N /\ ~ live m a).
Proof.
  intros HI. split_and!.
  - intros a Ha Ha0. unfold live. destruct (heap m !! a) as [e|] eqn:E; [eauto|].
    destruct (i_none HI a E Ha0) as [H _]. apply cocc_pos in Ha. unfold refs_to in H. unfold cocc in Ha. lia.
  - intros a e He. destruct (i_cnt HI a e He) as (Ha0&_&Hc). rewrite cocc_nil in Hc.
    split; [lia|]. assert (count e <> 0%N) by (eapply (i_pos HI a e He); set_solver). lia.
  - apply (i_nodup HI).
  - intros a. rewrite (i_log HI a). unfold live. split.
    + intros (?&?&[H|?]); [|set_solver]. split; [lia|]. rewrite H. by intros [? ?].
    + intros [? Hn]. split_and!; [lia..|]. left. destruct (heap m !! a) eqn:E; [|done]. destruct Hn; eauto.
Qed.

(** ** No leak without cycles *)
Lemma chain nv m n : Inv nv m [] ∅ -> Forall (fun v => v = 0%N) (vars m) ->
  forall a, live m a -> exists l, length l = n /\ Forall (live m) l /\ StronglySorted (tc (edge m)) (l ++ [a]).
Proof.
  intros HI Hz a Ha. induction n as [|n IH].
  { exists []. split_and!; auto. repeat constructor. }
  destruct IH as (l&Hl&Hlive&Hs).
  (* the head of l ++ [a] is live, so a member refers to it *)
  destruct (l ++ [a]) as [|b k] eqn:E; [by destruct l|].
  assert (Hb : live m b).
  { destruct l as [|c l']; cbn in E; injection E as <- <-; [done|]. by inversion Hlive. }
  destruct Hb as [eb Heb]. destruct (inv_safe nv m HI) as (_&Hc&_). destruct (Hc b eb Heb) as [_ Hp].
  assert (Hin : b ∈ all_slots m) by (apply cocc_pos; done).
  assert (Hb0 : b <> 0%N) by (by destruct (i_cnt HI b eb Heb)).
  unfold all_slots in Hin. rewrite elem_of_app in Hin. destruct Hin as [Hin|Hin].
  { rewrite Forall_forall in Hz. by apply Hz in Hin. }
  rewrite elem_of_list_In, <- flat_map_concat_map, in_flat_map in Hin.
  destruct Hin as ([c ec]&Hc1&Hc2). apply elem_of_list_In in Hc1, Hc2. cbn in Hc2.
  apply elem_of_map_to_list in Hc1.
  assert (Hedge : edge m c b) by (exists ec; auto).
  exists (c :: l). cbn [length app]. rewrite E. split_and!; [lia|constructor; [by eexists|done]|].
  constructor; [done|]. constructor; [by apply tc_once|].
  inversion Hs as [|? ? Hs1 Hs2]; subst. eapply Forall_impl; [done|].
  intros z Hz'. by eapply tc_l.
Qed.

Lemma sorted_nodup (R : relation addr) l : (forall a, ~ R a a) -> StronglySorted R l -> NoDup l.
Proof.
  intros Hirr. induction 1 as [|a l Hs IH Hall]; constructor; auto.
  intros Hin. rewrite Forall_forall in Hall. apply Hall in Hin. by apply Hirr in Hin.
Qed.

Lemma no_leak nv m : Inv nv m [] ∅ -> Forall (fun v => v = 0%N) (vars m) -> acyclic m -> heap m = ∅.
Proof.
  intros HI Hz Hac. apply map_empty. intros a. destruct (heap m !! a) as [e|] eqn:He; [|done]. exfalso.
  destruct (chain nv m (size (heap m)) HI Hz a) as (l&Hl&Hlive&Hs); [by eexists|].
  apply (sorted_nodup _ _ Hac) in Hs.
  assert (Hsub : list_to_set (l ++ [a]) ⊆@{gset addr} dom (heap m)).
  { intros b. rewrite elem_of_list_to_set, elem_of_app, elem_of_list_singleton, elem_of_dom.
    rewrite Forall_forall in Hlive. intros [Hb| ->]; [by apply Hlive|by eexists]. }
  apply subseteq_size in Hsub. rewrite size_list_to_set, size_dom, app_length in Hsub by done.
  cbn in Hsub. lia.
Qed.

(** ** Effect of an assignment when destructors only touch their own members *)
Definition own_dop (o : dop) : Prop :=
  match o with DAssign (SField _) _ => True | DTouchThis => True | _ => False end.
Definition own_dtors (m : mem) : Prop :=
  forall a e, heap m !! a = Some e -> Forall own_dop (dtor e).

(** Everything but the members of [X] that survives is unchanged. *)
Definition Surv (X : addr -> Prop) (m m' : mem) : Prop :=
  vars m' = vars m /\ next m' = next m /\
  (forall b e', heap m' !! b = Some e' ->
     exists e, heap m !! b = Some e /\ dtor e' = dtor e /\ (~ X b -> fields e' = fields e)).

Lemma Surv_refl X m : Surv X m m.
Proof. split_and!; eauto. Qed.
Lemma Surv_trans X m1 m2 m3 : Surv X m1 m2 -> Surv X m2 m3 -> Surv X m1 m3.
Proof.
  intros (A1&A2&A3) (B1&B2&B3). split_and!; [congruence..|].
  intros b e3 H3. destruct (B3 b e3 H3) as (e2&H2&D2&F2). destruct (A3 b e2 H2) as (e1&H1&D1&F1).
  exists e1. split_and!; [done|congruence|]. intros HX. rewrite F2, F1 by done. done.
Qed.
Lemma Surv_weak (X Y : addr -> Prop) m1 m2 : (forall b, X b -> Y b) -> Surv X m1 m2 -> Surv Y m1 m2.
Proof.
  intros HXY (A1&A2&A3). split_and!; auto. intros b e' H. destruct (A3 b e' H) as (e&?&?&HF).
  exists e. split_and!; auto.
Qed.
Lemma Surv_own X m m' : Surv X m m' -> own_dtors m -> own_dtors m'.
Proof. intros (_&_&H) Ho a e He. destruct (H a e He) as (e0&He0&->&_). by eapply Ho. Qed.

Definition RemSurv (rem : mem -> addr -> res mem) : Prop :=
  forall m a m', own_dtors m -> rem m a = Ok m' -> Surv (fun _ => False) m m'.

Lemma add_surv X m a m' : mem_add m a = Ok m' -> Surv X m m'.
Proof.
  unfold mem_add. destruct (negb (valid a)); [intros [= <-]; apply Surv_refl|].
  destruct (heap m !! a) as [e|] eqn:He; [|done]. intros [= <-]. split_and!; [done..|].
  intros b e'. cbn. rewrite lookup_insert_Some. intros [[<- <-]|[? ?]]; eauto.
Qed.

Lemma write_field_surv m a i v : Surv (fun b => b = a) m (write_slot m a (SField i) v).
Proof.
  cbn. destruct (heap m !! a) as [e|] eqn:He; [|apply Surv_refl]. split_and!; [done..|].
  intros b e'. cbn. rewrite lookup_insert_Some. intros [[<- <-]|[? ?]].
  - exists e. split_and!; [done..|]. intros H. by destruct H.
  - eauto.
Qed.

Lemma assign_field_surv rem m a i v m' : RemSurv rem -> own_dtors m ->
  assign_ref rem m a (SField i) v = Ok m' -> Surv (fun b => b = a) m m'.
Proof.
  intros HR Ho. unfold assign_ref. destruct (read_slot m a (SField i)) as [old|]; [|done].
  pose proof (write_field_surv m a i v) as H1.
  destruct (mem_add _ v) as [m2| | |] eqn:E2; cbn [rbind]; try done.
  apply (add_surv (fun b => b = a)) in E2. pose proof (Surv_trans _ _ _ _ H1 E2) as H2.
  destruct (valid old); [|intros [= <-]; done].
  intros E3. apply HR in E3; [|by eapply Surv_own]. eapply Surv_trans; [done|].
  eapply Surv_weak; [|done]. done.
Qed.

Lemma dops_surv rem a ds : forall m m', RemSurv rem -> own_dtors m -> Forall own_dop ds ->
  run_dops rem m a ds = Ok m' -> Surv (fun b => b = a) m m'.
Proof.
  induction ds as [|o ds IH]; intros m m' HR Ho Hd; cbn [run_dops].
  { intros [= <-]. apply Surv_refl. }
  inversion Hd as [|? ? Ho1 Hds]; subst.
  destruct (run_dop rem m a o) as [m1| | |] eqn:E; cbn [rbind]; try done. intros E2.
  assert (H1 : Surv (fun b => b = a) m m1).
  { destruct o as [[i|x] src|]; cbn [run_dop] in E.
    - destruct (read_src m a src); [|done]. by eapply assign_field_surv.
    - done.
    - destruct (mem_add m a) as [m2| | |] eqn:E3; cbn [rbind] in E; try done.
      apply (add_surv (fun b => b = a)) in E3. eapply Surv_trans; [done|].
      eapply Surv_weak; [|eapply HR; [by eapply Surv_own|done]]. done. }
  eapply Surv_trans; [done|]. eapply IH; eauto. by eapply Surv_own.
Qed.

Lemma drop_surv rem a n : forall i m m', RemSurv rem -> own_dtors m ->
  drop_fields rem m a i n = Ok m' -> Surv (fun b => b = a) m m'.
Proof.
  induction n as [|n IH]; intros i m m' HR Ho; cbn [drop_fields].
  { intros [= <-]. apply Surv_refl. }
  destruct (read_slot m a (SField i)) as [old|]; [|done].
  pose proof (write_field_surv m a i 0%N) as H1.
  set (m1 := write_slot m a (SField i) 0%N) in *.
  destruct (if valid old then rem m1 old else Ok m1) as [m2| | |] eqn:E; cbn [rbind]; try done.
  assert (H2 : Surv (fun b => b = a) m m2).
  { eapply Surv_trans; [done|]. destruct (valid old); [|injection E as <-; apply Surv_refl].
    eapply Surv_weak; [|eapply HR; [by eapply Surv_own|done]]. done. }
  intros E2. eapply Surv_trans; [done|]. eapply IH; eauto. by eapply Surv_own.
Qed.

Lemma remove_surv fuel : RemSurv (mem_remove fuel).
Proof.
  induction fuel as [|fuel IH]; intros m a m' Ho; cbn [mem_remove]; [done|].
  destruct (negb (valid a)); [intros [= <-]; apply Surv_refl|].
  destruct (heap m !! a) as [e|] eqn:He; [|done]. cbn zeta.
  set (c := ((count e + (two32 - 1)) mod two32)%N).
  set (m1 := set_heap m _).
  assert (H1 : Surv (fun _ => False) m m1).
  { split_and!; [done..|]. intros b e'. cbn. rewrite lookup_insert_Some. intros [[<- <-]|[? ?]]; eauto. }
  destruct (c =? 0)%N; [|intros [= <-]; done].
  unfold delete_object, run_destructor. destruct (heap m1 !! a) as [e1|] eqn:He1; [|done].
  set (m0 := Mem _ _ _ _).
  assert (H0 : Surv (fun b => b = a) m m0).
  { eapply Surv_weak; [|exact H1]. done. }
  assert (Ho0 : own_dtors m0) by (by eapply Surv_own).
  destruct (run_dops _ m0 a (dtor e1)) as [m2| | |] eqn:E2; cbn [rbind]; try done.
  apply dops_surv in E2; [|done..|by eapply Ho0].
  pose proof (Surv_own _ _ _ E2 Ho0) as Ho2.
  destruct (drop_fields _ m2 a 0 _) as [m3| | |] eqn:E3; cbn [rbind]; try done.
  apply drop_surv in E3; [|done..].
  intros [= <-].
  assert (H3 : Surv (fun b => b = a) m m3) by (eapply Surv_trans; [done|]; by eapply Surv_trans).
  destruct H3 as (V3&N3&S3). split_and!; [done..|].
  intros b e'. cbn. rewrite lookup_delete_Some. intros [Hne Hb].
  destruct (S3 b e' Hb) as (e0&?&?&?). exists e0. split_and!; auto.
Qed.

Lemma setvar_effect fuel m x y m' :
  own_dtors m -> gstep fuel m (GSetVar x y) = Ok m' ->
  exists v, vars m !! y = Some v /\ vars m' = <[x := v]> (vars m) /\
    (forall b e', heap m' !! b = Some e' -> exists e, heap m !! b = Some e /\ fields e' = fields e).
Proof.
  intros Ho. cbn [gstep]. unfold var_ref. destruct (vars m !! y) as [v|]; cbn [rbind]; [|done].
  unfold assign_ref. cbn [read_slot]. destruct (vars m !! x) as [old|] eqn:Hx; [|done].
  set (m1 := write_slot m 0%N (SVar x) v).
  assert (Ho1 : own_dtors m1) by exact Ho.
  destruct (mem_add m1 v) as [m2| | |] eqn:E2; cbn [rbind]; try done.
  apply (add_surv (fun _ => False)) in E2.
  intros E3. exists v. split; [done|].
  assert (H3 : Surv (fun _ => False) m1 m').
  { eapply Surv_trans; [done|]. destruct (valid old); [|injection E3 as <-; apply Surv_refl].
    eapply remove_surv; [by eapply Surv_own|done]. }
  destruct H3 as (V&_&S). split; [exact V|].
  intros b e' Hb. destruct (S b e' Hb) as (e&?&?&HF). exists e. split; [done|]. apply HF. tauto.
Qed.

Lemma setfield_effect fuel m x i y m' :
  own_dtors m -> gstep fuel m (GSetField x i y) = Ok m' ->
  exists a v, vars m !! x = Some a /\ vars m !! y = Some v /\ vars m' = vars m /\
    (forall b e', heap m' !! b = Some e' -> exists e, heap m !! b = Some e /\
       fields e' = if decide (b = a) then <[i := v]> (fields e) else fields e).
Proof.
  intros Ho. cbn [gstep]. unfold deref, var_ref. destruct (vars m !! x) as [a|] eqn:Hx; cbn [rbind]; [|done].
  destruct (valid a); cbn [rbind]; [|done].
  destruct (heap m !! a) as [ea|] eqn:Ha; cbn [rbind]; [|done].
  destruct (vars m !! y) as [v|] eqn:Hy; cbn [rbind]; [|done].
  unfold assign_ref. destruct (read_slot m a (SField i)) as [old|] eqn:Hr; [|done].
  set (m1 := write_slot m a (SField i) v).
  assert (Ho1 : own_dtors m1) by (eapply Surv_own; [apply write_field_surv|done]).
  destruct (mem_add m1 v) as [m2| | |] eqn:E2; cbn [rbind]; try done.
  apply (add_surv (fun _ => False)) in E2.
  intros E3. exists a, v. split; [done|]. split; [done|].
  assert (H3 : Surv (fun _ => False) m1 m').
  { eapply Surv_trans; [done|]. destruct (valid old); [|injection E3 as <-; apply Surv_refl].
    eapply remove_surv; [by eapply Surv_own|done]. }
  destruct H3 as (V&_&S). split.
  { rewrite V. unfold m1. cbn. by rewrite Ha. }
  intros b e' Hb. destruct (S b e' Hb) as (e&He&_&HF). rewrite HF by tauto.
  unfold m1 in He. cbn in He. rewrite Ha in He. cbn in He. apply lookup_insert_Some in He as [[<- <-]|[Hne He]].
  - exists ea. split; [done|]. destruct (decide (a = a)); [|done]. done.
  - exists e. split; [done|]. destruct (decide (b = a)); [congruence|]. done.
Qed.

(** ** Raw histories: addresses *)
Lemma mem_remove_next fuel : forall m a m', mem_remove fuel m a = Ok m' -> next m' = next m.
Proof.
  assert (HA : forall m a m', mem_add m a = Ok m' -> next m' = next m).
  { intros m a m'. unfold mem_add. destruct (negb _); [by intros [= <-]|].
    destruct (heap m !! a); [|done]. by intros [= <-]. }
  assert (HW : forall m a s v, next (write_slot m a s v) = next m).
  { intros. destruct s; cbn; [|done]. by destruct (heap m !! a). }
  induction fuel as [|fuel IH]; intros m a m'; cbn [mem_remove]; [done|].
  destruct (negb (valid a)); [by intros [= <-]|].
  destruct (heap m !! a) as [e|]; [|done]. cbn zeta.
  destruct (_ =? 0)%N; [|by intros [= <-]].
  unfold delete_object, run_destructor. destruct (heap _ !! a) as [e1|]; [|done].
  assert (HAs : forall m a s v m', assign_ref (mem_remove fuel) m a s v = Ok m' -> next m' = next m).
  { intros k b s v k'. unfold assign_ref. destruct (read_slot k b s) as [old|]; [|done].
    destruct (mem_add _ v) as [k2| | |] eqn:E; cbn [rbind]; try done. apply HA in E. rewrite HW in E.
    destruct (valid old); [intros H; apply IH in H; congruence|intros [= <-]; done]. }
  assert (HDs : forall ds k k', run_dops (mem_remove fuel) k a ds = Ok k' -> next k' = next k).
  { induction ds as [|o ds IHd]; intros k k'; cbn [run_dops]; [by intros [= <-]|].
    destruct (run_dop _ k a o) as [k1| | |] eqn:E; cbn [rbind]; try done. intros H. apply IHd in H. rewrite H.
    destruct o as [dst src|]; cbn [run_dop] in E.
    - destruct (read_src k a src); [|done]. by apply HAs in E.
    - destruct (mem_add k a) as [k2| | |] eqn:E2; cbn [rbind] in E; try done. apply HA in E2. apply IH in E. congruence. }
  assert (HF : forall n i k k', drop_fields (mem_remove fuel) k a i n = Ok k' -> next k' = next k).
  { induction n as [|n IHn]; intros i k k'; cbn [drop_fields]; [by intros [= <-]|].
    destruct (read_slot k a (SField i)) as [old|]; [|done].
    pose proof (HW k a (SField i) 0%N) as Hw. set (k1 := write_slot k a (SField i) 0%N) in *.
    destruct (valid old).
    - destruct (mem_remove fuel k1 old) as [k2| | |] eqn:E; cbn [rbind]; try done. apply IH in E.
      intros H. apply IHn in H. congruence.
    - cbn [rbind]. intros H. apply IHn in H. congruence. }
  destruct (run_dops _ _ a (dtor e1)) as [m2| | |] eqn:E2; cbn [rbind]; try done. apply HDs in E2.
  destruct (drop_fields _ m2 a 0 _) as [m3| | |] eqn:E3; cbn [rbind]; try done. apply HF in E3.
  intros [= <-]. cbn [next set_heap] in *. congruence.
Qed.

Lemma mnews_sound os : forall m, (0 < next m)%N ->
  Forall (fun a => next m <= a < 4294967295)%N (mnews m os) /\ NoDup (mnews m os).
Proof.
  induction os as [|o os IH]; intros m Hm; cbn [mnews].
  { split; constructor. }
  assert (HE : (exists m', mstep m o = Ok m') \/ mnews m (o :: os) = []).
  { destruct (mstep m o) as [k| | |] eqn:E; [left; eauto|right; cbn [mnews]; destruct o; rewrite ?E; done..]. }
  destruct HE as [[m' E]|HE]; [|cbn [mnews] in HE; rewrite HE; split; constructor].
  destruct o as [|a|a]; rewrite E; cbn [mstep] in E.
  - unfold mem_new in E. destruct (N.leb_spec 4294967295 (next m)); [done|]. cbn [rbind snd] in E.
    injection E as <-. destruct (IH (Mem (<[next m:=Entry 0 [] []]> (heap m)) (next m + 1) (vars m) (log m))) as [H1 H2];
      [cbn; lia|]. cbn [next] in H1.
    split.
    + constructor; [lia|]. eapply Forall_impl; [done|]. cbn. lia.
    + constructor; [|done]. intros Hin. rewrite Forall_forall in H1. apply H1 in Hin. lia.
  - assert (next m' = next m) as Hn.
    { unfold mem_add in E. destruct (negb _); [by injection E as <-|].
      destruct (heap m !! a); [|done]. by injection E as <-. }
    rewrite <- Hn in *. by apply IH.
  - apply mem_remove_next in E. rewrite <- E in *. by apply IH.
Qed.

Lemma mnews_next os : forall m m', mrun m os = Ok m' ->
  next m' = (next m + N.of_nat (length (mnews m os)))%N.
Proof.
  induction os as [|o os IH]; intros m m'; cbn [mrun mnews].
  { intros [= <-]. cbn. lia. }
  destruct o as [|a|a].
  - destruct (mstep m MNew) as [m1| | |] eqn:E; cbn [rbind]; try done. intros H. apply IH in H.
    cbn [mstep] in E.
    unfold mem_new in E. destruct (N.leb_spec 4294967295 (next m)); [done|]. cbn [rbind snd] in E.
    injection E as E. rewrite H. cbn [length]. rewrite <- E at 1. cbn [next]. lia.
  - destruct (mstep m (MAdd a)) as [m1| | |] eqn:E; cbn [rbind]; try done. intros H. apply IH in H.
    assert (next m1 = next m) as Hn.
    { cbn [mstep] in E. unfold mem_add in E. destruct (negb _); [by injection E as <-|].
      destruct (heap m !! a); [|done]. by injection E as <-. }
    lia.
  - destruct (mstep m (MRemove a)) as [m1| | |] eqn:E; cbn [rbind]; try done. intros H. apply IH in H.
    apply mem_remove_next in E. lia.
Qed.

(** ** Self-assignment *)
Lemma self_assign nv fuel m x : Inv nv m [] ∅ -> (x < nv)%nat -> (0 < fuel)%nat ->
  gstep fuel m (GSetVar x x) = Ok m.
Proof.
  intros HI Hx Hf. destruct fuel as [|fuel]; [lia|]. cbn [gstep]. unfold var_ref.
  destruct (vars m !! x) as [v|] eqn:Hv.
  2: { apply lookup_ge_None in Hv. rewrite (i_nv HI) in Hv. lia. }
  cbn [rbind]. unfold assign_ref. cbn [read_slot write_slot]. rewrite Hv.
  rewrite list_insert_id by done.
  assert (Hm : Mem (heap m) (next m) (vars m) (log m) = m) by (by destruct m). rewrite Hm.
  unfold mem_add. destruct (valid v) eqn:Hvv; cbn [negb]; [|done].
  destruct (var_live nv m x v HI Hv) as [->|[e He]]; [done|].
  rewrite He. cbn [rbind mem_remove]. rewrite Hvv. cbn [negb set_heap heap]. rewrite lookup_insert. cbn [count fields dtor].
  destruct (i_cnt HI v e He) as (_&_&Hc). rewrite cocc_nil in Hc.
  assert (count e <> 0%N) by (eapply (i_pos HI v e He); [set_solver|by destruct (i_cnt HI v e He)]).
  pose proof (refs_le m v). pose proof (i_bound HI).
  assert (E : (((count e + 1) mod two32 + (two32 - 1)) mod two32 = count e)%N).
  { unfold two32 in *. rewrite (N.mod_small (count e + 1)) by lia.
    replace (count e + 1 + (4294967296 - 1))%N with (count e + 1 * 4294967296)%N by lia.
    rewrite N.mod_add by lia. apply N.mod_small. lia. }
  rewrite E. destruct (N.eqb_spec (count e) 0); [done|].
  cbn [next vars log]. rewrite insert_insert.
  assert (Entry (count e) (fields e) (dtor e) = e) as -> by (by destruct e).
  unfold set_heap. cbn [heap next vars log]. rewrite insert_id by done. by destruct m.
Qed.

(** ** Histories with variables only *)
Definition var_op (o : gop) : Prop :=
  match o with GNew _ n d => n = 0%nat /\ d = [] | GSetVar _ _ | GNull _ => True | _ => False end.

Lemma var_ops_ok nv os : Forall var_op os -> Forall (gop_ok nv) os.
Proof. intros HF. eapply Forall_impl; [exact HF|]. intros [] H; cbn in *; try done; destruct H as [-> ->]; constructor. Qed.

Definition flat (m : mem) : Prop := forall a e, heap m !! a = Some e -> fields e = [] /\ dtor e = [].

Lemma surv_flat m m' : Surv (fun _ => False) m m' -> flat m -> flat m'.
Proof.
  intros (_&_&H) Hf a e He. destruct (H a e He) as (e0&He0&Hd&HF). destruct (Hf a e0 He0).
  rewrite HF by tauto. split; congruence.
Qed.

Lemma flat_own m : flat m -> own_dtors m.
Proof. intros H a e He. destruct (H a e He) as [_ ->]. constructor. Qed.

Lemma assign_var_flat fuel m a x v m' : flat m ->
  assign_ref (mem_remove fuel) m a (SVar x) v = Ok m' -> flat m'.
Proof.
  intros Hf. unfold assign_ref. cbn [read_slot]. destruct (vars m !! x) as [old|]; [|done].
  set (m1 := write_slot m a (SVar x) v). assert (Hf1 : flat m1) by exact Hf.
  destruct (mem_add m1 v) as [m2| | |] eqn:E; cbn [rbind]; try done.
  apply (add_surv (fun _ => False)) in E. apply surv_flat in E as Hf2; [|done].
  destruct (valid old); [|by intros [= <-]].
  intros H. apply remove_surv in H; [|by apply flat_own]. by eapply surv_flat.
Qed.

Lemma gstep_flat fuel m o m' : flat m -> var_op o -> gstep fuel m o = Ok m' -> flat m'.
Proof.
  intros Hf Ho. destruct o as [x n d|x y|x|x i y|x i|x y i]; try done; cbn [gstep].
  - destruct Ho as [-> ->]. destruct (var_ref m x); cbn [rbind]; try done.
    unfold mem_new. destruct (_ <=? _)%N; cbn [rbind fst snd]; [done|].
    apply assign_var_flat. intros b e. cbn. rewrite lookup_insert_Some. intros [[<- <-]|[_ H]]; [done|eauto].
  - destruct (var_ref m y) as [v| | |]; cbn [rbind]; try done. by apply assign_var_flat.
  - by apply assign_var_flat.
Qed.

Lemma grun_flat fuel os : forall m m', flat m -> Forall var_op os -> grun fuel m os = Ok m' -> flat m'.
Proof.
  induction os as [|o os IH]; intros m m' Hf Ho; cbn [grun]; [by intros [= <-]|].
  inversion Ho as [|? ? Ho1 Hos]; subst.
  destruct (gstep fuel m o) as [m1|e| |] eqn:E; try done.
  - apply IH; [|done]. by eapply gstep_flat.
  - destruct (String.eqb e _); [done|]. by apply IH.
Qed.

Lemma flat_slots m : flat m -> all_slots m = vars m.
Proof.
  intros Hf. unfold all_slots. assert (concat (map (fun p => fields p.2) (map_to_list (heap m))) = []) as ->; [|apply app_nil_r].
  assert (H : forall l, (forall p, p ∈ l -> fields (p.2) = []) -> concat (map (fun p : N * entry => fields p.2) l) = []).
  { induction l as [|p l IHl]; intros Hl; [done|]. cbn. rewrite (Hl p), IHl; [done|..|left].
    intros q Hq. apply Hl. by right. }
  apply H. intros [a e] Hp. apply elem_of_map_to_list in Hp. by destruct (Hf a e Hp).
Qed.

(** ** Destructor that hands out [this] *)
Lemma touch_diverges fuel : forall m a e,
  heap m !! a = Some e -> a <> 0%N -> count e = 1%N -> dtor e = [DTouchThis] ->
  mem_remove fuel m a = Fuel.
Proof.
  induction fuel as [|fuel IH]; intros m a e He Ha Hc Hd; cbn [mem_remove]; [done|].
  unfold valid. destruct (N.eqb_spec a 0); [done|]. cbn [negb]. rewrite He. cbn zeta. rewrite Hc.
  change ((1 + (two32 - 1)) mod two32)%N with 0%N. cbn [N.eqb].
  unfold delete_object, run_destructor. cbn [heap set_heap]. rewrite lookup_insert. cbn [dtor]. rewrite Hd.
  cbn [run_dops run_dop]. unfold mem_add, valid. destruct (N.eqb_spec a 0); [done|]. cbn [negb heap].
  rewrite lookup_insert. cbn [rbind count fields dtor].
  erewrite IH; [done| |done| |].
  - cbn [heap set_heap]. rewrite lookup_insert. done.
  - reflexivity.
  - reflexivity.
Qed.

(** Checking legality step by step. *)
Fixpoint legal_from (p os : list mop) : Prop :=
  match os with [] => True | o :: os' => legal_op p o /\ legal_from (p ++ [o]) os' end.
Lemma legal_from_ok os : forall p q o s, legal_from p os -> os = q ++ o :: s -> legal_op (p ++ q) o.
Proof.
  induction os as [|o' os IH]; intros p q o s; [by destruct q|]. cbn. intros [H1 H2].
  destruct q as [|o2 q]; cbn; intros [= -> ->].
  - by rewrite app_nil_r.
  - replace (p ++ o2 :: q) with ((p ++ [o2]) ++ q) by (by rewrite <- app_assoc). by eapply IH.
Qed.
Lemma legal_check os : legal_from [] os -> legal os.
Proof. intros H p o s E. by apply (legal_from_ok os [] p o s). Qed.
