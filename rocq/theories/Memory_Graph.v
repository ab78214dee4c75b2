From stdpp Require Import relations.
From Verif Require Import Base Memory_Model Memory_Spec.

(** ** Additive measures over all slots *)
Section Measure.
  Variable f : list addr -> nat.
  Hypothesis f_nil : f [] = 0%nat.
  Hypothesis f_app : forall l k, f (l ++ k) = (f l + f k)%nat.
  Hypothesis f_perm : forall l k, l ≡ₚ k -> f l = f k.

  Definition hm (h : gmap addr entry) : nat :=
    f (concat (map (fun p => fields p.2) (map_to_list h))).

  Lemma hm_insert_None h k e : h !! k = None -> hm (<[k := e]> h) = (f (fields e) + hm h)%nat.
  Proof.
    intros Hk. unfold hm.
    rewrite <- !flat_map_concat_map.
    erewrite f_perm; [|apply Permutation_flat_map, map_to_list_insert, Hk].
    cbn. apply f_app.
  Qed.

  Lemma hm_delete h k e : h !! k = Some e -> hm h = (f (fields e) + hm (delete k h))%nat.
  Proof.
    intros Hk. rewrite <- (insert_delete h k e Hk) at 1.
    apply hm_insert_None. apply lookup_delete.
  Qed.

  Lemma hm_insert h k e e0 : h !! k = Some e0 ->
    (hm (<[k := e]> h) + f (fields e0) = hm h + f (fields e))%nat.
  Proof.
    intros Hk. rewrite (hm_delete h k e0 Hk).
    rewrite (hm_delete (<[k:=e]> h) k e) by apply lookup_insert.
    rewrite delete_insert_delete. lia.
  Qed.

  Lemma f_insert l i v old : l !! i = Some old ->
    (f (<[i := v]> l) + f [old] = f l + f [v])%nat.
  Proof.
    intros Hi. rewrite <- (take_drop_middle l i old Hi) at 2.
    rewrite insert_take_drop by (eapply lookup_lt_Some; eauto).
    rewrite (f_app (take i l) (v :: _)), (f_app (take i l) (old :: _)).
    change (v :: drop (S i) l) with ([v] ++ drop (S i) l).
    change (old :: drop (S i) l) with ([old] ++ drop (S i) l).
    rewrite !f_app. lia.
  Qed.

  Definition tm (m : mem) : nat := f (all_slots m).
  Lemma tm_eq m : tm m = (f (vars m) + hm (heap m))%nat.
  Proof. unfold tm, all_slots, hm. apply f_app. Qed.

  Lemma tm_write m a s v old : read_slot m a s = Some old ->
    (tm (write_slot m a s v) + f [old] = tm m + f [v])%nat.
  Proof.
    intros Hr. rewrite !tm_eq. destruct s as [i|x]; cbn in *.
    - destruct (heap m !! a) as [e|] eqn:He; [|done]. cbn.
      pose proof (hm_insert (heap m) a (Entry (count e) (<[i:=v]> (fields e)) (dtor e)) e He) as H.
      cbn in H. pose proof (f_insert (fields e) i v old Hr). lia.
    - pose proof (f_insert (vars m) x v old Hr). lia.
  Qed.

  Lemma tm_set_count m a e c : heap m !! a = Some e ->
    tm (set_heap m (<[a := Entry c (fields e) (dtor e)]> (heap m))) = tm m.
  Proof.
    intros He. rewrite !tm_eq. cbn.
    pose proof (hm_insert (heap m) a (Entry c (fields e) (dtor e)) e He) as H. cbn in H. lia.
  Qed.
End Measure.

(** Indicator. *)
Definition ind (x b : addr) : nat := if N.eqb x b then 1 else 0.
Inductive ind_view (x b : addr) : nat -> Prop :=
| ind_eq : x = b -> ind_view x b 1
| ind_ne : x <> b -> ind_view x b 0.
Lemma ind_spec x b : ind_view x b (ind x b).
Proof. unfold ind. destruct (N.eqb_spec x b); by constructor. Qed.
Lemma ind_refl x : ind x x = 1%nat.
Proof. unfold ind. by rewrite N.eqb_refl. Qed.

Definition cocc (b : addr) : list addr -> nat := fun l => count_occ N.eq_dec l b.

Lemma cocc_nil b : cocc b [] = 0%nat. Proof. done. Qed.
Lemma cocc_app b l k : cocc b (l ++ k) = (cocc b l + cocc b k)%nat.
Proof. apply count_occ_app. Qed.
Lemma cocc_perm b l k : l ≡ₚ k -> cocc b l = cocc b k.
Proof. intros H. unfold cocc. revert b. by apply Permutation_count_occ. Qed.
Lemma cocc_sing b v : cocc b [v] = ind v b.
Proof. unfold cocc. cbn. destruct (ind_spec v b), (N.eq_dec v b); done. Qed.
Lemma cocc_cons b v l : cocc b (v :: l) = ((ind v b) + cocc b l)%nat.
Proof. unfold cocc. cbn. destruct (ind_spec v b), (N.eq_dec v b); done. Qed.
Lemma len_perm (l k : list addr) : l ≡ₚ k -> length l = length k.
Proof. intros H. by rewrite H. Qed.
Lemma cocc_le b l : (cocc b l <= length l)%nat.
Proof. apply count_occ_bound. Qed.
Lemma cocc_pos b l : b ∈ l <-> (0 < cocc b l)%nat.
Proof. rewrite elem_of_list_In. unfold cocc. by rewrite (count_occ_In N.eq_dec). Qed.

Definition refs_to_tm m b : refs_to m b = tm (cocc b) m := eq_refl.

Lemma refs_write m a s v old b : read_slot m a s = Some old ->
  (refs_to (write_slot m a s v) b + (ind old b)
   = refs_to m b + (ind v b))%nat.
Proof.
  intros H. rewrite !refs_to_tm. rewrite <- !cocc_sing.
  apply (tm_write (cocc b) (cocc_nil b) (cocc_app b) (cocc_perm b)). done.
Qed.

Lemma refs_set_count m a e c b : heap m !! a = Some e ->
  refs_to (set_heap m (<[a := Entry c (fields e) (dtor e)]> (heap m))) b = refs_to m b.
Proof.
  intros H. rewrite !refs_to_tm.
  by apply (tm_set_count (cocc b) (cocc_nil b) (cocc_app b) (cocc_perm b)).
Qed.

Lemma len_write m a s v old : read_slot m a s = Some old ->
  length (all_slots (write_slot m a s v)) = length (all_slots m).
Proof.
  intros H.
  pose proof (tm_write (@length addr) eq_refl (@app_length addr) len_perm m a s v old H) as E.
  unfold tm in E. cbn in E. lia.
Qed.

Lemma len_set_count m a e c : heap m !! a = Some e ->
  length (all_slots (set_heap m (<[a := Entry c (fields e) (dtor e)]> (heap m)))) = length (all_slots m).
Proof.
  intros H. apply (tm_set_count (@length addr) eq_refl (@app_length addr) len_perm). done.
Qed.

Lemma refs_le m b : (refs_to m b <= length (all_slots m))%nat.
Proof. apply cocc_le. Qed.

(** A slot's content is counted. *)
Lemma refs_read m a s v : read_slot m a s = Some v -> (0 < refs_to m v)%nat.
Proof.
  intros H. pose proof (refs_write m a s v v v H) as E.
  rewrite refs_to_tm. unfold tm. rewrite <- (cocc_pos v).
  unfold all_slots. rewrite elem_of_app. destruct s as [i|x]; cbn in H.
  - right. destruct (heap m !! a) as [e0|] eqn:He; [|done].
    rewrite elem_of_list_In, <- flat_map_concat_map, in_flat_map.
    exists (a, e0). split.
    + apply elem_of_list_In. by apply elem_of_map_to_list.
    + apply elem_of_list_In. cbn. by eapply elem_of_list_lookup_2.
  - left. by eapply elem_of_list_lookup_2.
Qed.

(** ** The invariant *)
(** [x]: an object that was just made and is not referenced yet (0: none). *)
Record InvX (x : addr) (nv : nat) (m : mem) (P : list addr) (D : gset addr) : Prop := {
  i_cnt : forall b e, heap m !! b = Some e ->
     b <> 0%N /\ (b < next m)%N /\ N.to_nat (count e) = (refs_to m b + cocc b P)%nat;
  i_none : forall b, heap m !! b = None -> b <> 0%N -> refs_to m b = 0%nat /\ cocc b P = 0%nat;
  i_D : forall d, d ∈ D -> exists e, heap m !! d = Some e /\ count e = 0%N;
  i_pos : forall b e, heap m !! b = Some e -> b ∉ D -> b <> x -> count e <> 0%N;
  i_dtor : forall b e, heap m !! b = Some e -> Forall (dop_ok nv (length (fields e))) (dtor e);
  i_nv : length (vars m) = nv;
  i_bound : (N.of_nat (length (all_slots m)) + 1 < two32)%N;
  i_nodup : NoDup (log m);
  i_log : forall b, b ∈ log m <-> (b <> 0%N /\ (b < next m)%N /\ (heap m !! b = None \/ b ∈ D))
}.
Arguments i_cnt {x nv m P D} _.
Arguments i_none {x nv m P D} _.
Arguments i_D {x nv m P D} _.
Arguments i_pos {x nv m P D} _.
Arguments i_dtor {x nv m P D} _.
Arguments i_nv {x nv m P D} _.
Arguments i_bound {x nv m P D} _.
Arguments i_nodup {x nv m P D} _.
Arguments i_log {x nv m P D} _.
Notation Inv := (InvX 0%N).

(** Frame: [ex] is an entry whose members may have changed. *)
Definition same_but_fields (e e' : entry) : Prop :=
  count e = count e' /\ dtor e = dtor e' /\ length (fields e) = length (fields e').

Record Fr (m m' : mem) (D : gset addr) : Prop := {
  fr_D : forall d, d ∈ D -> heap m' !! d = heap m !! d;
  fr_dom : forall b, heap m !! b = None -> heap m' !! b = None;
  fr_next : next m' = next m;
  fr_len : (length (all_slots m') <= length (all_slots m))%nat
}.

(** Like [Fr], but members of [a] may have changed. *)
Record FrX (a : addr) (m m' : mem) (D : gset addr) : Prop := {
  fx_D : forall d, d ∈ D -> d <> a -> heap m' !! d = heap m !! d;
  fx_a : a ∈ D -> forall e, heap m !! a = Some e ->
     exists e', heap m' !! a = Some e' /\ same_but_fields e e';
  fx_dom : forall b, heap m !! b = None -> heap m' !! b = None;
  fx_next : next m' = next m;
  fx_len : (length (all_slots m') <= length (all_slots m))%nat
}.

Lemma FrX_refl a m D : FrX a m m D.
Proof. constructor; auto. intros _ e He. exists e. repeat split; auto. Qed.

Lemma FrX_trans a m1 m2 m3 D : FrX a m1 m2 D -> FrX a m2 m3 D -> FrX a m1 m3 D.
Proof.
  intros [A1 A2 A3 A4 A5] [B1 B2 B3 B4 B5]. constructor.
  - intros d Hd Hne. rewrite B1, A1 by done. done.
  - intros Ha e He. destruct (A2 Ha e He) as (e' & He' & ? & ? & ?).
    destruct (B2 Ha e' He') as (e'' & He'' & ? & ? & ?). exists e''. unfold same_but_fields. split; [done|]. split_and!; congruence.
  - auto.
  - congruence.
  - lia.
Qed.

Lemma Fr_FrX a m m' D : Fr m m' D -> FrX a m m' D.
Proof.
  intros [A1 A2 A3 A4]. constructor; auto.
  intros Ha e He. exists e. rewrite A1 by done. repeat split; auto.
Qed.

Lemma dom_size (m m' : mem) :
  (forall b, heap m !! b = None -> heap m' !! b = None) -> (size (heap m') <= size (heap m))%nat.
Proof.
  intros H. rewrite <- !size_dom. apply subseteq_size. intros b.
  rewrite !elem_of_dom. intros [e He]. destruct (heap m !! b) eqn:Hb; [by eexists|].
  apply H in Hb. congruence.
Qed.

Definition RemOk (nv K : nat) (D : gset addr) (rem : mem -> addr -> res mem) : Prop :=
  forall m a, Inv nv m [a] D -> a <> 0%N -> (size (heap m) <= K)%nat ->
    exists m', rem m a = Ok m' /\ Inv nv m' [] D /\ Fr m m' D.

Lemma write_heap m a s v b :
  (heap m !! b = None -> heap (write_slot m a s v) !! b = None) /\
  (forall e, heap m !! b = Some e ->
     exists e', heap (write_slot m a s v) !! b = Some e' /\ same_but_fields e e') /\
  (forall e', heap (write_slot m a s v) !! b = Some e' ->
     exists e, heap m !! b = Some e /\ same_but_fields e e') /\
  (b <> a -> heap (write_slot m a s v) !! b = heap m !! b).
Proof.
  unfold same_but_fields.
  destruct s as [i|x]; cbn; [|split_and!; eauto].
  destruct (heap m !! a) as [e0|] eqn:Ha; [|split_and!; eauto].
  cbn. destruct (decide (a = b)) as [<-|Hne].
  - rewrite lookup_insert. split_and!.
    + congruence.
    + intros e [= <-]%(fun H => eq_trans (eq_sym Ha) H). eexists; split; [done|]. cbn.
      by rewrite insert_length.
    + intros e' [= <-]. exists e0. split; [done|]. cbn. by rewrite insert_length.
    + done.
  - rewrite lookup_insert_ne by done. split_and!; eauto.
Qed.

Lemma write_rest m a s v :
  next (write_slot m a s v) = next m /\ log (write_slot m a s v) = log m /\
  length (vars (write_slot m a s v)) = length (vars m).
Proof.
  destruct s as [i|x]; cbn; [destruct (heap m !! a); done|]. by rewrite insert_length.
Qed.

(** Writing a slot and acquiring the new reference: the old one is pending. *)
Definition pend (old : addr) : list addr := if valid old then [old] else [].

Lemma cocc_pend b old : b <> 0%N -> cocc b (pend old) = ind old b.
Proof.
  intros Hb. unfold pend, valid. destruct (N.eqb_spec old 0) as [->|Hne]; cbn [negb].
  - cbn. destruct (ind_spec 0%N b); [congruence|done].
  - apply cocc_sing.
Qed.

Lemma write_add_inv x nv m D a s v old :
  InvX x nv m [] D -> (x = 0%N \/ x = v) -> read_slot m a s = Some old ->
  (v = 0%N \/ (exists e, heap m !! v = Some e /\ v ∉ D)) ->
  exists m2, mem_add (write_slot m a s v) v = Ok m2 /\
    Inv nv m2 (pend old) D /\ FrX a m m2 D.
Proof.
  intros HI Hx Hr Hv.
  set (m1 := write_slot m a s v).
  pose proof (fun b => write_heap m a s v b) as HW. fold m1 in HW.
  destruct (write_rest m a s v) as (Hn1 & Hl1 & Hv1). fold m1 in Hn1, Hl1, Hv1.
  pose proof (fun b => refs_write m a s v old b Hr) as HR. fold m1 in HR.
  pose proof (len_write m a s v old Hr) as HL. fold m1 in HL.
  unfold mem_add, valid. destruct (N.eqb_spec v 0) as [Hv0|Hv0]; cbn [negb].
  - (* null *)
    exists m1. split; [done|]. split.
    + constructor.
      * intros b e He. destruct (HW b) as (_&_&Hb&_). destruct (Hb e He) as (e0&He0&Hc&_&_).
        destruct (i_cnt HI b e0 He0) as (?&?&Hcnt). rewrite Hn1. split_and!; [done..|].
        rewrite <- Hc, Hcnt, cocc_nil, (cocc_pend b old) by done. specialize (HR b).
        destruct (ind_spec v b) as [Hvb|Hvb]; [exfalso; congruence|]. lia.
      * intros b He Hb0. rewrite cocc_pend by done.
        assert (Hh : heap m !! b = None).
        { destruct (heap m !! b) as [e|] eqn:E; [|done].
          destruct (HW b) as (_&Hb&_). destruct (Hb e E) as (?&?&_). congruence. }
        destruct (i_none HI b Hh Hb0) as [H0 _]. specialize (HR b). rewrite H0 in HR.
        destruct (ind_spec v b) as [Hvb|Hvb]; [exfalso; congruence|]. lia.
      * intros d Hd. destruct (i_D HI d Hd) as (e&He&Hc).
        destruct (HW d) as (_&Hb&_). destruct (Hb e He) as (e'&?&?&_). exists e'. split; [done|congruence].
      * intros b e He Hnd. destruct (HW b) as (_&_&Hb&_). destruct (Hb e He) as (e0&He0&Hc&_&_).
        intros Hbx. rewrite <- Hc. eapply (i_pos HI b e0); [done..|]. destruct Hx; congruence.
      * intros b e He. destruct (HW b) as (_&_&Hb&_). destruct (Hb e He) as (e0&He0&_&Hd&Hlen).
        rewrite <- Hd, <- Hlen. by eapply (i_dtor HI b).
      * rewrite Hv1. apply (i_nv HI).
      * rewrite HL. apply (i_bound HI).
      * rewrite Hl1. apply (i_nodup HI).
      * intros b. rewrite Hl1, Hn1, (i_log HI). destruct (HW b) as (Ha1&Ha2&_).
        destruct (heap m !! b) as [e|] eqn:E.
        -- destruct (Ha2 e eq_refl) as (e'&He'&_). rewrite He'. split; intros (?&?&[|]); done || auto.
        -- rewrite Ha1 by done. tauto.
    + constructor.
      * intros d _ Hne. destruct (HW d) as (_&_&_&H). auto.
      * intros _ e He. destruct (HW a) as (_&H&_). auto.
      * intros b. destruct (HW b) as (H&_). auto.
      * done.
      * lia.
  - (* a live object outside D *)
    destruct Hv as [?|(ev&Hev&HvD)]; [done|].
    destruct (HW v) as (_&Hb&_). destruct (Hb ev Hev) as (e1&He1&Hc1&Hd1&Hf1). clear Hb.
    rewrite He1. eexists; split; [done|].
    set (m2 := set_heap m1 _).
    pose proof (fun b => refs_set_count m1 v e1 ((count e1 + 1) mod two32)%N b He1) as HR2. fold m2 in HR2.
    pose proof (len_set_count m1 v e1 ((count e1 + 1) mod two32)%N He1) as HL2. fold m2 in HL2.
    assert (Hcnt2 : forall b e, heap m2 !! b = Some e ->
      exists e0, heap m !! b = Some e0 /\ dtor e0 = dtor e /\ length (fields e0) = length (fields e) /\
         N.to_nat (count e) = (N.to_nat (count e0) + ind v b)%nat).
    { intros b e He. unfold m2 in He. cbn in He. rewrite lookup_insert_Some in He.
      destruct He as [[<- <-]|[Hne He]]; cbn.
      - exists ev. split_and!; [done..|]. rewrite ind_refl.
        destruct (i_cnt HI v ev Hev) as (_&_&Hcnt).
        pose proof (refs_le m v). pose proof (i_bound HI). rewrite cocc_nil in Hcnt.
        rewrite <- Hc1. rewrite N.mod_small; [lia|]. unfold two32 in *. lia.
      - destruct (HW b) as (_&_&Hb&_). destruct (Hb e He) as (e0&?&?&?&?). exists e0.
        destruct (ind_spec v b); [done|]. split_and!; [done..|]. rewrite H0. lia. }
    assert (Hnone2 : forall b, heap m2 !! b = None <-> heap m !! b = None).
    { intros b. unfold m2. cbn. rewrite lookup_insert_None. destruct (HW b) as (Ha1&Ha2&_). split.
      - intros [H _]. destruct (heap m !! b) as [e|]; [|done]. destruct (Ha2 e eq_refl) as (?&?&_). congruence.
      - intros H. split; [auto|]. congruence. }
    split.
    + constructor.
      * intros b e He. destruct (Hcnt2 b e He) as (e0&He0&_&_&Hc).
        destruct (i_cnt HI b e0 He0) as (?&?&Hcnt).
        split; [done|]. split; [cbn; by rewrite Hn1|].
        rewrite Hc, HR2, Hcnt, cocc_nil, cocc_pend by done. specialize (HR b). lia.
      * intros b He Hb0. rewrite cocc_pend, HR2 by done. apply Hnone2 in He.
        destruct (i_none HI b He Hb0) as [H0 _]. specialize (HR b). rewrite H0 in HR.
        destruct (ind_spec v b) as [Hvb|Hvb]; [exfalso; congruence|]. lia.
      * intros d Hd. destruct (i_D HI d Hd) as (e&He&Hc).
        destruct (heap m2 !! d) as [e2|] eqn:E; [|apply Hnone2 in E; congruence].
        exists e2. split; [done|]. destruct (Hcnt2 d e2 E) as (e0&He0&_&_&Hc').
        destruct (ind_spec v d) as [Hvb|Hvb]; [subst; done|]. assert (e0 = e) by congruence. subst. lia.
      * intros b e He Hnd. destruct (Hcnt2 b e He) as (e0&He0&_&_&Hc).
        intros Hbx. destruct (ind_spec v b) as [Hvb|Hvb]; [lia|].
        enough (count e0 <> 0%N) by lia. eapply (i_pos HI b e0); [done..|]. destruct Hx; congruence.
      * intros b e He. destruct (Hcnt2 b e He) as (e0&He0&Hd&Hlen&_).
        rewrite <- Hd, <- Hlen. by eapply (i_dtor HI b).
      * cbn. rewrite Hv1. apply (i_nv HI).
      * rewrite HL2, HL. apply (i_bound HI).
      * cbn. rewrite Hl1. apply (i_nodup HI).
      * intros b. cbn [log m2 set_heap next]. unfold m2; cbn [log next set_heap heap].
        rewrite Hl1, Hn1, (i_log HI). specialize (Hnone2 b). unfold m2 in Hnone2. cbn in Hnone2.
        rewrite Hnone2. done.
    + constructor.
      * intros d HdD Hne. unfold m2; cbn. rewrite lookup_insert_ne by (intros ->; done).
        destruct (HW d) as (_&_&_&H). auto.
      * intros HaD e He. destruct (HW a) as (_&H&_). destruct (H e He) as (e'&He'&?).
        exists e'. split; [|done]. unfold m2; cbn. rewrite lookup_insert_ne by (intros ->; done). done.
      * intros b Hb. by apply Hnone2.
      * cbn. done.
      * lia.
Qed.

Lemma assign_ok nv K D rem m a s v old :
  RemOk nv K D rem -> Inv nv m [] D -> read_slot m a s = Some old ->
  (v = 0%N \/ (exists e, heap m !! v = Some e /\ v ∉ D)) ->
  (size (heap m) <= K)%nat ->
  exists m', assign_ref rem m a s v = Ok m' /\ Inv nv m' [] D /\ FrX a m m' D.
Proof.
  intros HRem HI Hr Hv HK.
  destruct (write_add_inv 0%N nv m D a s v old HI (or_introl eq_refl) Hr Hv) as (m2&Hadd&HI2&HF2).
  unfold assign_ref. rewrite Hr. cbn. rewrite Hadd. cbn. unfold pend in HI2.
  destruct (valid old) eqn:Hvo.
  - destruct (HRem m2 old) as (m3&Hm3&HI3&HF3); [done| |pose proof (dom_size m m2 (fx_dom _ _ _ _ HF2)); lia|].
    { unfold valid in Hvo. destruct (N.eqb_spec old 0); done. }
    exists m3. split; [done|]. split; [done|]. eapply FrX_trans; [done|]. by apply Fr_FrX.
  - exists m2. auto.
Qed.

(** Any reference that can be read from a slot is live and outside D. *)
Lemma read_live nv m D a s v : Inv nv m [] D -> read_slot m a s = Some v ->
  v = 0%N \/ (exists e, heap m !! v = Some e /\ v ∉ D).
Proof.
  intros HI Hr. destruct (decide (v = 0%N)) as [|Hv0]; [by left|]. right.
  pose proof (refs_read _ _ _ _ Hr) as Hp.
  destruct (heap m !! v) as [e|] eqn:He.
  - exists e. split; [done|]. intros HD. destruct (i_D HI v HD) as (e'&He'&Hc).
    destruct (i_cnt HI v e He) as (_&_&Hcnt). assert (e' = e) by congruence. subst.
    rewrite Hc in Hcnt. lia.
  - destruct (i_none HI v He Hv0). lia.
Qed.

Lemma slot_read nv m D a e s : Inv nv m [] D -> heap m !! a = Some e ->
  slot_ok nv (length (fields e)) s -> exists v, read_slot m a s = Some v.
Proof.
  intros HI He. destruct s as [i|x]; cbn; intros Hlt.
  - rewrite He. by apply lookup_lt_is_Some_2.
  - apply lookup_lt_is_Some_2. by rewrite (i_nv HI).
Qed.

Lemma run_dops_ok nv K D rem a ds : forall m e,
  RemOk nv K D rem -> Inv nv m [] D -> a ∈ D -> heap m !! a = Some e ->
  Forall (dop_ok nv (length (fields e))) ds ->
  (size (heap m) <= K)%nat ->
  exists m', run_dops rem m a ds = Ok m' /\ Inv nv m' [] D /\ FrX a m m' D.
Proof.
  induction ds as [|o ds IH]; intros m e HRem HI HaD He Hok HK; cbn.
  { exists m. split; [done|]. split; [done|]. apply FrX_refl. }
  inversion Hok as [|? ? Ho Hds]; subst.
  destruct o as [dst src|]; [|done]. destruct Ho as [Hdst Hsrc].
  destruct (slot_read nv m D a e dst HI He Hdst) as [old Hold].
  assert (exists v, read_src m a src = Some v /\ (v = 0%N \/ (exists e, heap m !! v = Some e /\ v ∉ D)))
    as (v&Hv&Hlive).
  { destruct src as [|sl]; cbn; [exists 0%N; auto|].
    destruct (slot_read nv m D a e sl HI He Hsrc) as [v Hv]. exists v. split; [done|].
    by eapply read_live. }
  destruct (assign_ok nv K D rem m a dst v old) as (m1&Hm1&HI1&HF1); auto.
  cbn. rewrite Hv, Hm1. cbn.
  destruct (fx_a _ _ _ _ HF1 HaD e He) as (e1&He1&_&_&Hlen).
  destruct (IH m1 e1) as (m2&Hm2&HI2&HF2); auto.
  { by rewrite <- Hlen. }
  { pose proof (dom_size m m1 (fx_dom _ _ _ _ HF1)). lia. }
  exists m2. split; [done|]. split; [done|]. by eapply FrX_trans.
Qed.

Lemma drop_fields_ok nv K D rem a n : forall m e i,
  RemOk nv K D rem -> Inv nv m [] D -> a ∈ D -> heap m !! a = Some e ->
  (i + n = length (fields e))%nat ->
  (forall j v, (j < i)%nat -> fields e !! j = Some v -> v = 0%N) ->
  (size (heap m) <= K)%nat ->
  exists m' e', drop_fields rem m a i n = Ok m' /\ Inv nv m' [] D /\ FrX a m m' D /\
     heap m' !! a = Some e' /\ Forall (fun v => v = 0%N) (fields e').
Proof.
  induction n as [|n IH]; intros m e i HRem HI HaD He Hlen Hz HK; cbn.
  { exists m, e. split; [done|]. split; [done|]. split; [apply FrX_refl|]. split; [done|].
    apply Forall_lookup. intros j v Hj. eapply Hz; [|done].
    apply lookup_lt_Some in Hj. lia. }
  destruct (lookup_lt_is_Some_2 (fields e) i) as [old Hold]; [lia|].
  assert (Hrs : read_slot m a (SField i) = Some old) by (cbn; by rewrite He).
  change (match heap m !! a with Some e => fields e !! i | None => None end) with (read_slot m a (SField i)).
  rewrite Hrs.
  (* the state after write+release; the entry of a keeps exactly the written members *)
  destruct (write_add_inv 0%N nv m D a (SField i) 0%N old HI (or_introl eq_refl) Hrs (or_introl eq_refl)) as (m2&Hadd&HI2&HF2).
  injection Hadd as Hm2. change (match heap m !! a with Some e => _ | None => m end) with (write_slot m a (SField i) 0%N).
  cbn [write_slot]. rewrite Hm2.
  assert (Ha2 : heap m2 !! a = Some (Entry (count e) (<[i:=0%N]> (fields e)) (dtor e))).
  { rewrite <- Hm2. cbn. rewrite He. cbn. by rewrite lookup_insert. }
  assert (exists m3, (if valid old then rem m2 old else Ok m2) = Ok m3 /\ Inv nv m3 [] D /\ Fr m2 m3 D)
    as (m3&Hm3&HI3&HF3).
  { unfold pend in HI2. destruct (valid old) eqn:Hvo.
    - apply HRem; [done| |pose proof (dom_size m m2 (fx_dom _ _ _ _ HF2)); lia].
      unfold valid in Hvo. destruct (N.eqb_spec old 0); done.
    - exists m2. split; [done|]. split; [done|]. constructor; auto. }
  rewrite Hm3. cbn [rbind].
  edestruct (IH m3 (Entry (count e) (<[i:=0%N]> (fields e)) (dtor e)) (S i)) as (m4&e4&Hm4&HI4&HF4&He4&Hz4); auto.
  { rewrite (fr_D _ _ _ HF3) by done. done. }
  { cbn. rewrite insert_length. lia. }
  { intros j v Hj. cbn. destruct (decide (j = i)) as [->|Hne].
    - rewrite list_lookup_insert by lia. congruence.
    - rewrite list_lookup_insert_ne by done. intros. eapply Hz; [|done]. lia. }
  { pose proof (dom_size m m2 (fx_dom _ _ _ _ HF2)).
    pose proof (dom_size m2 m3 (fr_dom _ _ _ HF3)). lia. }
  exists m4, e4. split; [done|]. split; [done|]. split; [|done].
  eapply FrX_trans; [done|]. eapply FrX_trans; [by apply Fr_FrX|]. done.
Qed.

Lemma remove_ok nv : forall fuel (D : gset addr),
  forall K, (K < fuel + size D)%nat -> RemOk nv K D (mem_remove fuel).
Proof.
  induction fuel as [|fuel IH]; intros D K HK m a HI Ha0 Hsz.
  { (* no fuel: impossible, a is live and outside D *)
    exfalso. assert (Hp : cocc a [a] = 1%nat) by (rewrite cocc_sing; apply ind_refl).
    assert (exists e, heap m !! a = Some e) as [e He].
    { destruct (heap m !! a) as [e|] eqn:E; [eauto|]. destruct (i_none HI a E Ha0). lia. }
    assert (a ∉ D).
    { intros HD. destruct (i_D HI a HD) as (e'&He'&Hc). destruct (i_cnt HI a e' He') as (_&_&H). lia. }
    assert (HD : D ∪ {[a]} ⊆ dom (heap m)).
    { intros d. rewrite elem_of_union, elem_of_singleton, elem_of_dom. intros [Hd| -> ]; [|eauto].
      destruct (i_D HI d Hd) as (?&?&_). eauto. }
    apply subseteq_size in HD. rewrite size_union, size_singleton, size_dom in HD by set_solver. lia. }
  assert (Hp : cocc a [a] = 1%nat) by (rewrite cocc_sing; apply ind_refl).
  destruct (heap m !! a) as [e|] eqn:He.
  2: { destruct (i_none HI a He Ha0). lia. }
  destruct (i_cnt HI a e He) as (_&Hlt&Hcnt).
  assert (HaD : a ∉ D).
  { intros HD. destruct (i_D HI a HD) as (e'&He'&Hc). assert (e' = e) by congruence. subst. lia. }
  cbn [mem_remove]. unfold valid. destruct (N.eqb_spec a 0) as [|_]; [done|]. cbn [negb].
  rewrite He.
  pose proof (refs_le m a) as Hrl. pose proof (i_bound HI) as Hbd.
  assert (Hc : ((count e + (two32 - 1)) mod two32 = count e - 1)%N).
  { unfold two32 in *. replace (count e + (4294967296 - 1))%N with (count e - 1 + 1 * 4294967296)%N by lia.
    rewrite N.mod_add by lia. apply N.mod_small. lia. }
  rewrite Hc. cbn zeta.
  set (m1 := set_heap m _).
  pose proof (fun b => refs_set_count m a e (count e - 1)%N b He) as HR1. fold m1 in HR1.
  pose proof (len_set_count m a e (count e - 1)%N He) as HL1. fold m1 in HL1.
  assert (Hh1 : forall b e', heap m1 !! b = Some e' -> exists e0, heap m !! b = Some e0 /\
     fields e' = fields e0 /\ dtor e' = dtor e0 /\ (b <> a -> e' = e0) /\ (b = a -> count e' = count e - 1)%N).
  { intros b e'. unfold m1; cbn. rewrite lookup_insert_Some. intros [[<- <-]|[Hne Hb]].
    - exists e. split_and!; done.
    - exists e'. split_and!; done. }
  assert (Hn1 : forall b, heap m1 !! b = None <-> heap m !! b = None).
  { intros b. unfold m1; cbn. rewrite lookup_insert_None. split; [tauto|]. intros; split; congruence. }
  assert (Hcnt1 : forall b e', heap m1 !! b = Some e' ->
    b <> 0%N /\ (b < next m1)%N /\ N.to_nat (count e') = (refs_to m1 b + cocc b [])%nat).
  { intros b e' Hb. destruct (Hh1 b e' Hb) as (e0&He0&_&_&Hne&Heq).
    destruct (i_cnt HI b e0 He0) as (?&?&Hcb). split; [done|]. split; [done|].
    rewrite HR1, cocc_nil. rewrite cocc_sing in Hcb. destruct (ind_spec a b) as [Hab|Hn]; [subst b|].
    - rewrite Heq by done. assert (e0 = e) by congruence. subst. lia.
    - rewrite Hne by done. lia. }
  assert (Hnone1 : forall b, heap m1 !! b = None -> b <> 0%N -> refs_to m1 b = 0%nat /\ cocc b [] = 0%nat).
  { intros b Hb Hb0. apply Hn1 in Hb. destruct (i_none HI b Hb Hb0). rewrite HR1. done. }
  assert (Hdt1 : forall b e', heap m1 !! b = Some e' -> Forall (dop_ok nv (length (fields e'))) (dtor e')).
  { intros b e' Hb. destruct (Hh1 b e' Hb) as (e0&He0&->&->&_). by eapply (i_dtor HI b). }
  destruct (N.eqb_spec (count e - 1) 0) as [Hz|Hnz].
  - (* last reference: destruction *)
    unfold delete_object, run_destructor. unfold m1 at 1; cbn [heap set_heap]. rewrite lookup_insert.
    set (D' := D ∪ {[a]}).
    set (m0 := Mem (heap m1) (next m1) (vars m1) (log m1 ++ [a])).
    assert (HR0 : forall b, refs_to m0 b = refs_to m b) by (intros b; rewrite <- HR1; done).
    assert (HI0 : Inv nv m0 [] D').
    { constructor.
      - intros b e' Hb. rewrite HR0. cbn in Hb |- *. destruct (Hcnt1 b e' Hb) as (?&?&?). rewrite HR1 in *. auto.
      - intros b Hb Hb0. rewrite HR0. cbn in Hb. destruct (Hnone1 b Hb Hb0). rewrite HR1 in *. auto.
      - intros d. unfold D'. rewrite elem_of_union, elem_of_singleton. intros [Hd| -> ]; cbn [heap m0].
        + destruct (i_D HI d Hd) as (e'&He'&Hc'). exists e'. split; [|done].
          unfold m1; cbn. rewrite lookup_insert_ne by (intros ->; done). done.
        + eexists. unfold m1; cbn. rewrite lookup_insert. split; [done|]. cbn. lia.
      - intros b e' Hb Hnd. cbn in Hb. destruct (Hh1 b e' Hb) as (e0&He0&_&_&Hne&_).
        unfold D' in Hnd. rewrite elem_of_union, elem_of_singleton in Hnd.
        intros Hbx. rewrite Hne by tauto. eapply (i_pos HI b e0); tauto.
      - intros b e' Hb. by apply (Hdt1 b).
      - apply (i_nv HI).
      - change (all_slots m0) with (all_slots m1). rewrite HL1. apply (i_bound HI).
      - cbn. apply NoDup_app. split; [apply (i_nodup HI)|]. split; [|apply NoDup_singleton].
        intros b Hb. rewrite elem_of_list_singleton. intros ->. apply (i_log HI) in Hb.
        destruct Hb as (_&_&[|]); congruence.
      - intros b. cbn [log m0 heap next]. unfold m1 at 1; cbn [log set_heap].
        rewrite elem_of_app, elem_of_list_singleton, (i_log HI b), Hn1.
        unfold D'. rewrite elem_of_union, elem_of_singleton. change (next m1) with (next m).
        destruct (decide (b = a)) as [->|]; [|tauto]. split; [|tauto]. intros _. auto. }
    assert (HszD : size D' = S (size D)).
    { unfold D'. rewrite size_union, size_singleton by set_solver. lia. }
    assert (HRem : RemOk nv K D' (mem_remove fuel)) by (apply IH; lia).
    assert (Ha0' : heap m0 !! a = Some (Entry (count e - 1) (fields e) (dtor e))).
    { unfold m0, m1; cbn. by rewrite lookup_insert. }
    assert (HaD' : a ∈ D') by set_solver.
    assert (Hsz0 : (size (heap m0) <= K)%nat).
    { pose proof (dom_size m m1 (fun b => proj2 (Hn1 b))). change (heap m0) with (heap m1). lia. }
    destruct (run_dops_ok nv K D' (mem_remove fuel) a (dtor e) m0 _ HRem HI0 HaD' Ha0') as (m2&Hm2&HI2&HF2).
    { cbn. apply (i_dtor HI a e He). }
    { done. }
    cbn [dtor fields]. fold m1. fold m0.
    rewrite Hm2. cbn [rbind].
    destruct (fx_a _ _ _ _ HF2 HaD' _ Ha0') as (e2&He2&_&_&Hlen2). cbn in Hlen2.
    rewrite Hlen2.
    destruct (drop_fields_ok nv K D' (mem_remove fuel) a (length (fields e2)) m2 e2 0)
      as (m3&e3&Hm3&HI3&HF3&He3&Hz3); auto.
    { intros; lia. }
    { pose proof (dom_size m0 m2 (fx_dom _ _ _ _ HF2)). lia. }
    rewrite Hm3. cbn [rbind]. eexists; split; [done|].
    set (m4 := set_heap m3 _).
    assert (HR4 : forall b, b <> 0%N -> refs_to m4 b = refs_to m3 b).
    { intros b Hb0. rewrite !refs_to_tm, !(tm_eq (cocc b) (cocc_app b)).
      unfold m4; cbn [heap vars set_heap].
      rewrite (hm_delete (cocc b) (cocc_app b) (cocc_perm b) (heap m3) a e3 He3).
      assert (cocc b (fields e3) = 0%nat); [|lia].
      destruct (cocc b (fields e3)) eqn:E; [done|]. exfalso.
      assert (b ∈ fields e3) as Hin by (apply cocc_pos; lia).
      rewrite Forall_forall in Hz3. by apply Hz3 in Hin. }
    assert (HL4 : (length (all_slots m4) <= length (all_slots m3))%nat).
    { pose proof (hm_delete (@length addr) (@app_length addr) len_perm (heap m3) a e3 He3) as E.
      pose proof (tm_eq (@length addr) (@app_length addr) m4) as E4.
      pose proof (tm_eq (@length addr) (@app_length addr) m3) as E3.
      unfold tm in E3, E4. unfold m4 in E4 at 2 3; cbn [heap vars set_heap] in E4. lia. }
    assert (Hin4 : forall b e', heap m4 !! b = Some e' -> b <> a /\ heap m3 !! b = Some e').
    { intros b e'. unfold m4; cbn. rewrite lookup_delete_Some. intros [? ?]; auto. }
    assert (Hra : refs_to m3 a = 0%nat).
    { destruct (i_D HI3 a HaD') as (e'&He'&Hc').
      destruct (i_cnt HI3 a e' He') as (_&_&H). rewrite Hc' in H. lia. }
    split.
    + constructor.
      * intros b e' Hb. destruct (Hin4 b e' Hb) as [Hne Hb3].
        destruct (i_cnt HI3 b e' Hb3) as (?&?&?). rewrite HR4 by done. auto.
      * intros b Hb Hb0. rewrite HR4 by done. unfold m4 in Hb; cbn in Hb. apply lookup_delete_None in Hb as [<-|Hb]; [done|].
        apply (i_none HI3 b Hb Hb0).
      * intros d Hd. destruct (i_D HI3 d) as (e'&He'&Hc'); [set_solver|]. exists e'. split; [|done].
        unfold m4; cbn. rewrite lookup_delete_ne by (intros ->; done). done.
      * intros b e' Hb Hnd. destruct (Hin4 b e' Hb) as [Hne Hb3].
        eapply (i_pos HI3 b e' Hb3). set_solver.
      * intros b e' Hb. destruct (Hin4 b e' Hb) as [Hne Hb3]. by eapply (i_dtor HI3 b).
      * apply (i_nv HI3).
      * pose proof (i_bound HI3). lia.
      * apply (i_nodup HI3).
      * intros b. change (log m4) with (log m3). change (next m4) with (next m3).
        rewrite (i_log HI3 b). unfold m4; cbn [heap set_heap]. rewrite lookup_delete_None.
        unfold D'. rewrite elem_of_union, elem_of_singleton.
        destruct (decide (b = a)) as [->|]; [tauto|]. assert (a <> b) by done. tauto.
    + constructor.
      * intros d Hd. assert (d <> a) by (intros ->; done). unfold m4; cbn. rewrite lookup_delete_ne by done.
        rewrite (fx_D _ _ _ _ HF3), (fx_D _ _ _ _ HF2) by set_solver.
        unfold m0, m1; cbn. rewrite lookup_insert_ne by done. done.
      * intros b Hb. unfold m4; cbn. rewrite lookup_delete_None. right.
        apply (fx_dom _ _ _ _ HF3), (fx_dom _ _ _ _ HF2). by apply Hn1.
      * cbn. rewrite (fx_next _ _ _ _ HF3), (fx_next _ _ _ _ HF2). done.
      * pose proof (fx_len _ _ _ _ HF3). pose proof (fx_len _ _ _ _ HF2).
        change (all_slots m0) with (all_slots m1) in *. lia.
  - (* still referenced *)
    exists m1. split; [done|]. split.
    + constructor; auto.
      * intros d Hd. destruct (i_D HI d Hd) as (e'&He'&Hc'). exists e'. split; [|done].
        unfold m1; cbn. rewrite lookup_insert_ne by (intros ->; done). done.
      * intros b e' Hb Hnd. destruct (Hh1 b e' Hb) as (e0&He0&_&_&Hne&Heq).
        destruct (decide (b = a)) as [->|Hn]; [rewrite Heq by done; done|].
        rewrite Hne by done. by eapply (i_pos HI b e0).
      * apply (i_nv HI).
      * rewrite HL1. done.
      * apply (i_nodup HI).
      * intros b. change (log m1) with (log m). change (next m1) with (next m).
        rewrite (i_log HI b), Hn1. done.
    + constructor; auto.
      * intros d Hd. unfold m1; cbn. rewrite lookup_insert_ne by (intros ->; done). done.
      * intros b Hb. by apply Hn1.
      * lia.
Qed.
