From stdpp Require Import relations.
From Verif Require Import Base Memory_Model Memory_Spec.

(** ** Raw histories *)
Lemma mrun_app m p q :
  mrun m (p ++ q) = (let! m' := mrun m p in mrun m' q).
Proof.
  revert m. induction p as [|o p IH]; intros m; cbn; [done|].
  destruct (mstep m o); cbn; auto.
Qed.

Lemma news_snoc p o : news (p ++ [o]) = (news p + if bool_decide (o = MNew) then 1 else 0)%nat.
Proof. unfold news. rewrite filter_app, app_length. f_equal. cbn. repeat case_decide; case_bool_decide; naive_solver. Qed.
Lemma adds_snoc a p o : adds a (p ++ [o]) = (adds a p + if bool_decide (o = MAdd a) then 1 else 0)%nat.
Proof. unfold adds. rewrite filter_app, app_length. f_equal. cbn. repeat case_decide; case_bool_decide; naive_solver. Qed.
Lemma rems_snoc a p o : rems a (p ++ [o]) = (rems a p + if bool_decide (o = MRemove a) then 1 else 0)%nat.
Proof. unfold rems. rewrite filter_app, app_length. f_equal. cbn. repeat case_decide; case_bool_decide; naive_solver. Qed.

Lemma legal_prefix p q : legal (p ++ q) -> legal p.
Proof.
  intros H p' o s ->. apply (H p' o (s ++ q)). by rewrite <- app_assoc.
Qed.

Lemma adds_le a p : (adds a p <= length p)%nat.
Proof. unfold adds. apply filter_length. Qed.
Lemma news_le p : (news p <= length p)%nat.
Proof. unfold news. apply filter_length. Qed.

(** What is in memory after a legal history. *)
Definition rep (p : list mop) (m : mem) : Prop :=
  next m = N.of_nat (S (news p)) /\
  (forall a e, heap m !! a = Some e ->
     allocated a p /\ ~ released_to_zero a p /\
     (rems a p <= adds a p)%nat /\ count e = N.of_nat (adds a p - rems a p) /\
     fields e = [] /\ dtor e = []) /\
  (forall a, heap m !! a = None -> a = 0%N \/ ~ allocated a p \/ released_to_zero a p) /\
  NoDup (log m) /\
  (forall a, a ∈ log m <-> (allocated a p /\ released_to_zero a p)) /\
  (forall a, a <> 0%N -> ~ allocated a p -> adds a p = 0%nat /\ rems a p = 0%nat) /\
  (forall a, a <> 0%N -> (rems a p <= adds a p)%nat).

Ltac cnt := rewrite ?news_snoc, ?adds_snoc, ?rems_snoc in *.

Lemma legal_run p :
  legal p -> (N.of_nat (length p) < 4294967294)%N ->
  exists m, mrun (init 0) p = Ok m /\ rep p m.
Proof.
  induction p as [|o p IH] using rev_ind.
  { intros _ _. exists (init 0). split; [done|]. unfold rep, init; cbn.
    split; [done|]. split; [intros a e He; rewrite lookup_empty in He; done|].
    split; [intros a _; right; left; unfold allocated, news; cbn; lia|].
    split; [constructor|]. split.
    { intros a. rewrite elem_of_nil. split; [done|]. intros [_ H].
      unfold released_to_zero, adds in H. cbn in H. lia. }
    split; intros a _; cbn; auto. }
  intros Hl Hlen. rewrite app_length in Hlen; cbn in Hlen.
  destruct IH as (m & Hrun & Hrep); [by eapply legal_prefix|lia|].
  assert (Hop : legal_op p o) by (apply (Hl p o []); done).
  rewrite mrun_app, Hrun. cbn.
  destruct Hrep as (Hnext & Hh & Hn & Hnd & Hlog & Hun & Hle).
  pose proof (news_le p) as Hnl.
  destruct o as [|b|b]; cbn [legal_op] in Hop; cbn [mstep].
  - (* MNew *)
    unfold mem_new. rewrite Hnext.
    destruct (N.leb_spec 4294967295 (N.of_nat (S (news p)))); [lia|]. cbn [rbind snd].
    eexists; split; [done|]. unfold rep; cbn [next heap log set_heap].
    assert (Hex : forall a, allocated a (p ++ [MNew]) <->
                   allocated a p \/ a = N.of_nat (S (news p))).
    { intros a. unfold allocated. rewrite news_snoc. rewrite bool_decide_true by done. lia. }
    assert (Ha : forall a, adds a (p ++ [MNew]) = adds a p).
    { intros a. rewrite adds_snoc, bool_decide_false by done. lia. }
    assert (Hr : forall a, rems a (p ++ [MNew]) = rems a p).
    { intros a. rewrite rems_snoc, bool_decide_false by done. lia. }
    assert (Hz : forall a, released_to_zero a (p ++ [MNew]) <-> released_to_zero a p).
    { intros a. unfold released_to_zero. by rewrite Ha, Hr. }
    assert (Hnew : ~ allocated (N.of_nat (S (news p))) p) by (unfold allocated; lia).
    destruct (Hun (N.of_nat (S (news p)))) as [Hu1 Hu2]; [lia|done|].
    split; [rewrite news_snoc, bool_decide_true by done; lia|].
    split.
    { intros a e. rewrite lookup_insert_Some. intros [[<- <-]|[Hne He]].
      - rewrite Hex, Hz, Ha, Hr, Hu1, Hu2. cbn [count fields dtor]. split; [by right|].
        split; [unfold released_to_zero; lia|]. split; [lia|]. done.
      - rewrite Hex, Hz, Ha, Hr. destruct (Hh _ _ He) as (?&?&?). split; [by left|]. done. }
    split.
    { intros a. rewrite lookup_insert_None. intros [He Hne]. rewrite Hex, Hz.
      destruct (Hn a He) as [?|[?|?]]; [by left| |by right; right].
      right; left. intros [?|?]; congruence. }
    split; [done|]. split.
    { intros a. rewrite Hlog, Hex, Hz. split; [intros [? ?]; split; [by left|done]|].
      intros [[?| -> ] Hz']; [done|]. unfold released_to_zero in Hz'. lia. }
    split.
    { intros a Ha0 Hna. rewrite Ha, Hr. apply Hun; [done|]. rewrite Hex in Hna. tauto. }
    intros a Ha0. rewrite Ha, Hr. auto.
  - (* MAdd *)
    assert (Hex : forall a, allocated a (p ++ [MAdd b]) <-> allocated a p).
    { intros a. unfold allocated. rewrite news_snoc, bool_decide_false by done. lia. }
    assert (Hr : forall a, rems a (p ++ [MAdd b]) = rems a p).
    { intros a. rewrite rems_snoc, bool_decide_false by done. lia. }
    assert (Hab : adds b (p ++ [MAdd b]) = S (adds b p)).
    { rewrite adds_snoc, bool_decide_true by done. lia. }
    assert (Hac : forall a, a <> b -> adds a (p ++ [MAdd b]) = adds a p).
    { intros a Hne. rewrite adds_snoc, bool_decide_false by congruence. lia. }
    assert (Hnn : news (p ++ [MAdd b]) = news p).
    { rewrite news_snoc, bool_decide_false by done. lia. }
    unfold mem_add, valid. destruct (N.eqb_spec b 0) as [->|Hb0]; cbn.
    { eexists; split; [done|]. unfold rep. rewrite Hnn. split; [done|].
      split.
      { intros a e He. destruct (Hh _ _ He) as (Hall&Hnz&Hle'&Hc&?&?).
        assert (a <> 0%N) by (unfold allocated in Hall; lia).
        rewrite Hex. unfold released_to_zero. rewrite !Hac, !Hr by done. split_and!; done. }
      split.
      { intros a He. rewrite Hex. destruct (N.eq_dec a 0) as [->|Hne]; [by left|].
        unfold released_to_zero. rewrite Hac, Hr by done. apply Hn; done. }
      split; [done|]. split.
      { intros a. rewrite Hlog, Hex. destruct (N.eq_dec a 0) as [->|Hne].
        { unfold allocated. lia. }
        unfold released_to_zero. rewrite Hac, Hr by done. done. }
      split.
      { intros a Hne Hna. rewrite Hex in Hna. rewrite Hac, Hr by done. auto. }
      intros a Hne. rewrite Hac, Hr by done. auto. }
    destruct Hop as [?|[Hal Hnz]]; [done|].
    destruct (heap m !! b) as [e|] eqn:Hb.
    2: { destruct (Hn b Hb) as [?|[?|?]]; done. }
    cbn. eexists; split; [done|].
    destruct (Hh _ _ Hb) as (_&_&Hle'&Hc&Hf&Hd).
    unfold rep; cbn [next heap log set_heap]. rewrite Hnn.
    assert (Hz : forall a, allocated a p -> released_to_zero a (p ++ [MAdd b]) <-> released_to_zero a p).
    { intros a Halp. destruct (decide (a = b)) as [->|Hne].
      - unfold released_to_zero at 1. rewrite Hab, Hr. unfold released_to_zero in *. lia.
      - unfold released_to_zero. by rewrite Hac, Hr. }
    pose proof (adds_le b p).
    split; [done|]. split.
    { intros a e'. rewrite lookup_insert_Some. intros [[<- <-]|[Hne He]].
      - rewrite Hex, Hz, Hab, Hr by done. cbn [count fields dtor].
        split; [done|]. split; [done|]. split; [lia|]. rewrite Hc.
        split; [|done]. rewrite N.mod_small; unfold two32; lia.
      - destruct (Hh _ _ He) as (?&?&?&?&?&?). rewrite Hex, Hz, Hac, Hr by done. split_and!; done. }
    split.
    { intros a. rewrite lookup_insert_None. intros [He Hne]. rewrite Hex.
      destruct (Hn a He) as [?|[?|?]]; [by left|right; by left|].
      right. unfold released_to_zero. rewrite Hac, Hr by done. by right. }
    split; [done|]. split.
    { intros a. rewrite Hlog, Hex. split; intros [? ?]; split; auto; by apply Hz. }
    split.
    { intros a Hne Hna. rewrite Hex in Hna. rewrite Hac, Hr by (intros ->; done). auto. }
    intros a Hne. rewrite Hr. pose proof (Hle a Hne).
    destruct (decide (a = b)) as [->|Hne']; [rewrite Hab|rewrite Hac by done]; lia.
  - (* MRemove *)
    assert (Hex : forall a, allocated a (p ++ [MRemove b]) <-> allocated a p).
    { intros a. unfold allocated. rewrite news_snoc, bool_decide_false by done. lia. }
    assert (Ha : forall a, adds a (p ++ [MRemove b]) = adds a p).
    { intros a. rewrite adds_snoc, bool_decide_false by done. lia. }
    assert (Hrb : rems b (p ++ [MRemove b]) = S (rems b p)).
    { rewrite rems_snoc, bool_decide_true by done. lia. }
    assert (Hrc : forall a, a <> b -> rems a (p ++ [MRemove b]) = rems a p).
    { intros a Hne. rewrite rems_snoc, bool_decide_false by congruence. lia. }
    assert (Hnn : news (p ++ [MRemove b]) = news p).
    { rewrite news_snoc, bool_decide_false by done. lia. }
    cbn [mem_remove]. unfold valid. destruct (N.eqb_spec b 0) as [->|Hb0]; cbn [negb rbind].
    { eexists; split; [done|]. unfold rep. rewrite Hnn. split; [done|].
      split.
      { intros a e He. destruct (Hh _ _ He) as (Hall&Hnz&Hle'&Hc&?&?).
        assert (a <> 0%N) by (unfold allocated in Hall; lia).
        rewrite Hex. unfold released_to_zero. rewrite !Ha, !Hrc by done. split_and!; done. }
      split.
      { intros a He. rewrite Hex. destruct (N.eq_dec a 0) as [->|Hne]; [by left|].
        unfold released_to_zero. rewrite Ha, Hrc by done. apply Hn; done. }
      split; [done|]. split.
      { intros a. rewrite Hlog, Hex. destruct (N.eq_dec a 0) as [->|Hne].
        { unfold allocated. lia. }
        unfold released_to_zero. rewrite Ha, Hrc by done. done. }
      split.
      { intros a Hne Hna. rewrite Hex in Hna. rewrite Ha, Hrc by done. auto. }
      intros a Hne. rewrite Ha, Hrc by done. auto. }
    destruct Hop as [?|Hlt]; [done|].
    assert (Hal : allocated b p).
    { destruct (decide (allocated b p)) as [|Hna]; [done|].
      destruct (Hun b Hb0 Hna). lia. }
    destruct (heap m !! b) as [e|] eqn:Hb.
    2: { destruct (Hn b Hb) as [?|[?|Hz]]; try done. unfold released_to_zero in Hz. lia. }
    destruct (Hh _ _ Hb) as (_&Hnz&Hle'&Hc&Hf&Hd).
    pose proof (adds_le b p).
    assert (Hcc : ((count e + (two32 - 1)) mod two32 = N.of_nat (adds b p - S (rems b p)))%N).
    { rewrite Hc. unfold two32.
      replace (N.of_nat (adds b p - rems b p) + (4294967296 - 1))%N
        with (N.of_nat (adds b p - S (rems b p)) + 1 * 4294967296)%N by lia.
      rewrite N.mod_add by lia. apply N.mod_small. lia. }
    rewrite Hcc, Hf, Hd.
    destruct (N.eqb_spec (N.of_nat (adds b p - S (rems b p))) 0) as [Hz0|Hz0].
    + unfold delete_object, run_destructor. cbn [heap set_heap]. rewrite lookup_insert.
      cbn [rbind run_dops drop_fields dtor fields length set_heap heap next vars log].
      eexists; split; [done|]. unfold rep; cbn [next heap log set_heap]. rewrite Hnn.
      assert (Hzb : released_to_zero b (p ++ [MRemove b])).
      { unfold released_to_zero. rewrite Ha, Hrb. lia. }
      assert (Hz : forall a, a <> b -> released_to_zero a (p ++ [MRemove b]) <-> released_to_zero a p).
      { intros a Hne. unfold released_to_zero. by rewrite Ha, Hrc. }
      split; [done|]. split.
      { intros a e'. rewrite delete_insert_delete. rewrite lookup_delete_Some. intros [Hne He].
        destruct (Hh _ _ He) as (?&?&?&?&?&?). rewrite Hex, Hz, Ha, Hrc by done. split_and!; done. }
      split.
      { intros a. rewrite delete_insert_delete, lookup_delete_None, Hex. intros [<-|He]; [by right; right|].
        destruct (decide (a = b)) as [->|Hne]; [by right; right|]. rewrite Hz by done. auto. }
      split.
      { apply NoDup_app. split; [done|]. split; [|apply NoDup_singleton].
        intros a Hin. rewrite elem_of_list_singleton. intros ->. apply Hlog in Hin. tauto. }
      split.
      { intros a. rewrite elem_of_app, Hlog, elem_of_list_singleton, Hex.
        destruct (decide (a = b)) as [->|Hne]; [tauto|]. rewrite Hz by done. tauto. }
      split.
      { intros a Hne Hna. rewrite Hex in Hna. rewrite Ha, Hrc by (intros ->; done). auto. }
      intros a Hne. rewrite Ha. destruct (decide (a = b)) as [->|Hne'];
        [rewrite Hrb; lia|rewrite Hrc by done; auto].
    + cbn. eexists; split; [done|]. unfold rep; cbn [next heap log set_heap]. rewrite Hnn.
      assert (Hz : forall a, allocated a p -> released_to_zero a (p ++ [MRemove b]) <-> released_to_zero a p).
      { intros a Halp. destruct (decide (a = b)) as [->|Hne].
        - unfold released_to_zero at 1. rewrite Ha, Hrb. unfold released_to_zero in *. lia.
        - unfold released_to_zero. by rewrite Ha, Hrc. }
      split; [done|]. split.
      { intros a e'. rewrite lookup_insert_Some. intros [[<- <-]|[Hne He]].
        - rewrite Hex, Hz, Ha, Hrb by done. cbn [count fields dtor]. repeat split; try done; try lia; apply Hal.
        - destruct (Hh _ _ He) as (?&?&?&?&?&?). rewrite Hex, Hz, Ha, Hrc by done. split_and!; done. }
      split.
      { intros a. rewrite lookup_insert_None. intros [He Hne]. rewrite Hex.
        destruct (Hn a He) as [?|[?|?]]; [by left|right; by left|].
        right. unfold released_to_zero. rewrite Ha, Hrc by done. by right. }
      split; [done|]. split.
      { intros a. rewrite Hlog, Hex. split; intros [? ?]; split; auto; by apply Hz. }
      split.
      { intros a Hne Hna. rewrite Hex in Hna. rewrite Ha, Hrc by (intros ->; done). auto. }
      intros a Hne. rewrite Ha. destruct (decide (a = b)) as [->|Hne'];
        [rewrite Hrb; lia|rewrite Hrc by done; auto].
Qed.
