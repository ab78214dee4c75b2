(** Proofs about files: histories of calls. *)
From Verif Require Import Base Text_Model Value_Model Value_Proofs File_Model File_Spec File_Proofs.

(** ** What holds in every state *)
Record ok (w : world) : Prop := Okay {
  ok_size : size (w_handles w) = S (length (w_streams w));
  ok_handle : forall h, w_handles w !! h =
    if (h =? 0)%Z then Some None
    else if (1 <=? h)%Z && (h <=? Z.of_nat (length (w_streams w)))%Z then Some (Some (Z.to_nat (h - 1))) else None;
  ok_node : forall i m, w_streams w !! i = Some m -> sm_node m < length (w_nodes w);
  ok_name : forall n i, w_names w !! n = Some i -> i < length (w_nodes w);
  ok_own : forall n n' i, w_names w !! n = Some i -> w_names w !! n' = Some i -> n = n';
  ok_tidy : forall i m, w_streams w !! i = Some m -> tidy m }.

Lemma ok_start names nodes deny input : proper names nodes -> ok (start names nodes deny input).
Proof.
  intros [hp1 hp2]. split; cbn [w_names w_nodes w_streams w_handles start].
  - by vm_compute.
  - intros h. cbn [length]. destruct (h =? 0)%Z eqn:E0; [apply Z.eqb_eq in E0; by subst|].
    destruct ((1 <=? h)%Z && (h <=? Z.of_nat 3)%Z) eqn:E.
    + apply andb_prop in E as [E1%Z.leb_le E2%Z.leb_le].
      assert (h = 1 \/ h = 2 \/ h = 3)%Z as [->|[->| ->]] by lia; by vm_compute.
    + apply Z.eqb_neq in E0. apply andb_false_iff in E as [E%Z.leb_gt|E%Z.leb_gt];
        (apply not_elem_of_list_to_map_1; cbn [fmap list_fmap fst]; rewrite !elem_of_cons, elem_of_nil; lia).
  - intros i m. rewrite app_length. cbn [length]. destruct i as [|[|[|i]]]; cbn; intros [= <-]; cbn; lia.
  - intros n i h. rewrite app_length. apply hp1 in h. lia.
  - done.
  - intros i m. destruct i as [|[|[|i]]]; cbn; intros [= <-]; by split.
Qed.

Lemma ok_range w h : ok w -> (is_Some (w_handles w !! h) <-> (0 <= h <= Z.of_nat (length (w_streams w)))%Z).
Proof.
  intros hw. rewrite (ok_handle _ hw). destruct (h =? 0)%Z eqn:E0; [apply Z.eqb_eq in E0; subst; split; [lia|by eexists]|].
  apply Z.eqb_neq in E0. destruct (_ && _) eqn:E.
  - apply andb_prop in E as [E1%Z.leb_le E2%Z.leb_le]. split; [lia|by eexists].
  - split; [by intros []|]. intros. apply andb_false_iff in E as [E%Z.leb_gt|E%Z.leb_gt]; lia.
Qed.
Lemma ok_at w h i : ok w -> w_handles w !! h = Some (Some i) -> (h = Z.of_nat i + 1)%Z.
Proof.
  intros hw. rewrite (ok_handle _ hw). destruct (h =? 0)%Z eqn:E0; [done|].
  destruct (_ && _) eqn:E; [|done]. apply andb_prop in E as [E1%Z.leb_le E2%Z.leb_le]. intros [= <-]. lia.
Qed.
Lemma ok_find w h :
  ok w -> (1 <= h <= Z.of_nat (length (w_streams w)))%Z ->
  exists m f, w_handles w !! h = Some (Some (Z.to_nat (h - 1))) /\ w_streams w !! Z.to_nat (h - 1) = Some m /\
              w_nodes w !! sm_node m = Some f.
Proof.
  intros hw hh. rewrite (ok_handle _ hw). destruct (Z.eqb_spec h 0); [lia|].
  replace ((1 <=? h)%Z && (h <=? Z.of_nat (length (w_streams w)))%Z) with true
    by (symmetry; apply andb_true_intro; split; apply Z.leb_le; lia).
  destruct (lookup_lt_is_Some_2 (w_streams w) (Z.to_nat (h - 1))) as [m hm]; [lia|].
  destruct (lookup_lt_is_Some_2 (w_nodes w) (sm_node m)) as [f hf]; [by eapply ok_node|]. by exists m, f.
Qed.

(** ** Opening *)
Inductive opened (w : world) (n md : str) (h : Z) (w' : world) : Prop :=
| Opened node k u x names nodes :
    parse_mode md = Some (k, u, x) -> c_str n <> [] -> w_deny w (c_str n) = false ->
    ((names = w_names w /\ w_names w !! c_str n = Some node /\ (k <> MRead -> x = false) /\
      nodes = match k with MWrite => <[node := []]> (w_nodes w) | _ => w_nodes w end)
     \/ (w_names w !! c_str n = None /\ k <> MRead /\ node = length (w_nodes w) /\
         names = <[c_str n := node]> (w_names w) /\ nodes = w_nodes w ++ [[]])) ->
    h = Z.of_nat (S (length (w_streams w))) ->
    w' = World names nodes (w_streams w ++ [mode_stream node k u])
               (<[h := Some (length (w_streams w))]> (w_handles w)) (w_deny w) -> opened w n md h w'.
Lemma new_handle_ok w names nodes m :
  ok w -> new_handle (World names nodes (w_streams w) (w_handles w) (w_deny w)) m =
    (Z.of_nat (S (length (w_streams w))),
     World names nodes (w_streams w ++ [m]) (<[Z.of_nat (S (length (w_streams w))) := Some (length (w_streams w))]> (w_handles w)) (w_deny w)).
Proof.
  intros hw. unfold new_handle. cbn [w_names w_nodes w_streams w_handles w_deny]. rewrite (ok_size _ hw).
  assert (E : w_handles w !! Z.of_nat (S (length (w_streams w))) = None).
  { rewrite (ok_handle _ hw). destruct (Z.eqb_spec (Z.of_nat (S (length (w_streams w)))) 0); [lia|].
    destruct (_ && _) eqn:E; [|done]. apply andb_prop in E as [_ E%Z.leb_le]. lia. }
  by rewrite E.
Qed.
Lemma fopen_cases w n md :
  ok w -> fopen w n md = (0%Z, w) \/ opened w n md (fst (fopen w n md)) (snd (fopen w n md)).
Proof.
  intros hw. unfold fopen. destruct (parse_mode md) as [[[k u] x]|] eqn:Ep; [|by left].
  destruct (w_deny w (c_str n)) eqn:Ed; cbn [orb]; [by left|].
  case_bool_decide as En; [by left|].
  destruct (w_names w !! c_str n) as [node|] eqn:Ei.
  - assert (hk : (k = MRead /\ fopen w n md = new_handle w (mode_stream node k u)) \/ k <> MRead).
    { destruct k; [left|by right..]. split; [done|]. unfold fopen. rewrite Ep, Ed, Ei. cbn [orb]. by rewrite bool_decide_eq_false_2. }
    destruct hk as [[-> _]|hk].
    + right. assert (E := new_handle_ok w (w_names w) (w_nodes w) (mode_stream node MRead u) hw).
      replace (World (w_names w) (w_nodes w) (w_streams w) (w_handles w) (w_deny w)) with w in E by by destruct w.
      rewrite E. cbn [fst snd]. eapply (Opened _ _ _ _ _ node MRead); try done. left. by split_and!.
    + destruct x.
      * left. destruct k; [done|done..].
      * right.
        assert (E : match k with
                    | MRead => new_handle w (mode_stream node k u)
                    | _ => new_handle (match k with MWrite => set_node w node [] | _ => w end) (mode_stream node k u)
                    end = new_handle (World (w_names w) (match k with MWrite => <[node := []]> (w_nodes w) | _ => w_nodes w end)
                                            (w_streams w) (w_handles w) (w_deny w)) (mode_stream node k u))
          by by destruct k, w.
        destruct k; [done|..]; rewrite E, new_handle_ok by done; eapply Opened; try done; left; by split_and!.
  - destruct k; [by left|right..]; rewrite new_handle_ok by done; eapply (Opened _ _ _ _ _ (length (w_nodes w)));
      try done; right; by split_and!.
Qed.
Lemma opened_ok w n md h w' : ok w -> opened w n md h w' -> ok w'.
Proof.
  intros hw [node k u x names nodes hp hn hd hcase -> ->].
  assert (hlen : length (w_nodes w) <= length nodes /\ node < length nodes).
  { destruct hcase as [(_ & hi & _ & ->)|(_ & _ & -> & _ & ->)].
    - apply (ok_name _ hw) in hi. destruct k; rewrite ?insert_length; lia.
    - rewrite app_length. cbn [length]. lia. }
  split; cbn [w_names w_nodes w_streams w_handles].
  - rewrite map_size_insert, app_length. cbn [length].
    destruct (w_handles w !! Z.of_nat (S (length (w_streams w)))) as [y|] eqn:E.
    + exfalso. assert (hs : is_Some (w_handles w !! Z.of_nat (S (length (w_streams w))))) by by eexists.
      apply (ok_range _ _ hw) in hs. lia.
    + rewrite (ok_size _ hw). lia.
  - intros h. rewrite app_length. cbn [length]. destruct (decide (h = Z.of_nat (S (length (w_streams w))))) as [->|ne].
    + rewrite lookup_insert. destruct (Z.eqb_spec (Z.of_nat (S (length (w_streams w)))) 0); [lia|].
      destruct (_ && _) eqn:E; [do 2 f_equal; lia|].
      apply andb_false_iff in E as [E%Z.leb_gt|E%Z.leb_gt]; lia.
    + rewrite lookup_insert_ne, (ok_handle _ hw) by congruence. destruct (h =? 0)%Z; [done|].
      assert (E : ((1 <=? h)%Z && (h <=? Z.of_nat (length (w_streams w)))%Z) = ((1 <=? h)%Z && (h <=? Z.of_nat (length (w_streams w) + 1))%Z)).
      { destruct (1 <=? h)%Z; [|done]. cbn [andb]. destruct (Z.leb_spec h (Z.of_nat (length (w_streams w))));
          destruct (Z.leb_spec h (Z.of_nat (length (w_streams w) + 1))); try done; lia. }
      by rewrite E.
  - intros i m. rewrite lookup_app_Some. intros [h|[_ h]]; [apply (ok_node _ hw) in h; lia|].
    apply list_lookup_singleton_Some in h as [_ <-]. cbn. lia.
  - intros n' i. destruct hcase as [(-> & hi & _ & ->)|(hi & _ & -> & -> & ->)].
    + intros h. apply (ok_name _ hw) in h. lia.
    + rewrite lookup_insert_Some. intros [[<- <-]|[_ h]]; [lia|]. apply (ok_name _ hw) in h. lia.
  - intros n1 n2 i. destruct hcase as [(-> & hi & _ & ->)|(hi & _ & -> & -> & ->)]; [apply (ok_own _ hw)|].
    rewrite !lookup_insert_Some. intros [[<- <-]|[_ h1]] [[<- E]|[_ h2]]; [done|..].
    + apply (ok_name _ hw) in h2. lia.
    + subst i. apply (ok_name _ hw) in h1. lia.
    + by eapply (ok_own _ hw).
  - intros i m. rewrite lookup_app_Some. intros [h|[_ h]]; [by apply (ok_tidy _ hw) in h|].
    apply list_lookup_singleton_Some in h as [_ <-]. by split.
Qed.
Lemma touch_lookup w i m f j m1 :
  w_streams (touch w i m f) !! j = Some m1 -> (i = j /\ m1 = m /\ j < length (w_streams w)) \/ (i <> j /\ w_streams w !! j = Some m1).
Proof. cbn. rewrite list_lookup_insert_Some. naive_solver. Qed.
Lemma touched_ok w c h w' : ok w -> touched w c h w' -> ok w'.
Proof.
  intros hw [i m f m' f' op h1 h2 h3 h4 -> (hn & _) _ ht _].
  split; cbn [touch w_names w_nodes w_handles].
  - cbn [w_streams touch]. rewrite insert_length. apply hw.
  - cbn [w_streams touch]. rewrite insert_length. apply hw.
  - intros j mj hj. rewrite insert_length. apply touch_lookup in hj as [(-> & -> & _)|[_ hj]].
    + rewrite hn. by eapply ok_node.
    + by eapply ok_node.
  - intros n j. rewrite insert_length. apply hw.
  - apply hw.
  - intros j mj hj. apply touch_lookup in hj as [(-> & -> & _)|[_ hj]]; [|by eapply ok_tidy].
    apply ht. by eapply ok_tidy.
Qed.
Lemma perform_cases w c a w' :
  ok w -> perform w c = Ok (a, w') ->
  (exists h, handle_of c = Some h /\ (touched w c h w' \/ w' = w /\ w_handles w !! h = Some None))
  \/ (exists n md, c = COpen n md /\ ((w' = w /\ a = ANum 0) \/ exists h, a = ANum h /\ opened w n md h w')).
Proof.
  intros hw H. destruct (handle_of c) as [h|] eqn:Eh; [left; exists h; split; [done|by eapply perform_touched]|].
  right. destruct c; try done. exists name, mode. split; [done|]. cbn in H. injection H as <- <-.
  destruct (fopen_cases w name mode hw) as [->|h]; [left; done|right]. by eexists.
Qed.
Lemma perform_ok w c a w' : ok w -> perform w c = Ok (a, w') -> ok w'.
Proof.
  intros hw H. destruct (perform_cases _ _ _ _ hw H) as [(h & _ & [ht|[-> _]])|(n & md & _ & [[-> _]|(h & _ & ho)])];
    [by eapply touched_ok|done|done|by eapply opened_ok].
Qed.
Lemma runs_ok w l w' : ok w -> runs w l w' -> ok w'.
Proof. intros hw H. induction H as [w|w c a w1 l w2 hc _ IH|w c t l w2 hc _ IH]; eauto using perform_ok. Qed.
Lemma reached_ok w : reached w -> ok w.
Proof. intros (names & nodes & deny & input & l & hp & hr). eapply runs_ok; [|done]. by apply ok_start. Qed.

(** ** Handles in a history *)
Lemma touched_length w c h w' : touched w c h w' -> length (w_streams w') = length (w_streams w).
Proof. intros [i m f m' f' op h1 h2 h3 h4 -> _ _ _ _]. cbn. apply insert_length. Qed.
Lemma given_cons c a l :
  given ((c, a) :: l) = (match c, a with COpen _ _, ANum h => if (h =? 0)%Z then [] else [h] | _, _ => [] end) ++ given l.
Proof. reflexivity. Qed.
Lemma runs_given w l w' :
  ok w -> runs w l w' ->
  length (w_streams w) <= length (w_streams w') /\ NoDup (given l) /\
  forall h, h ∈ given l <-> (Z.of_nat (length (w_streams w)) < h <= Z.of_nat (length (w_streams w')))%Z.
Proof.
  intros hw H. induction H as [w|w c a w1 l w2 hc hr IH|w c t l w2 hc hr IH].
  - split_and!; [done|constructor|]. intros h. cbn. split; [intros hh; by apply elem_of_nil in hh|lia].
  - destruct (IH (perform_ok _ _ _ _ hw hc)) as (IH1 & IH2 & IH3). rewrite given_cons.
    destruct (perform_cases _ _ _ _ hw hc) as [(h & Eh & ht)|(n & md & -> & [[-> ->]|(h & -> & ho)])].
    + assert (El : length (w_streams w1) = length (w_streams w)) by (destruct ht as [ht|[-> _]]; [by eapply touched_length|done]).
      assert (Eg : match c, a with COpen _ _, ANum h => if (h =? 0)%Z then [] else [h] | _, _ => [] end = ([] : list Z)) by by destruct c.
      rewrite Eg. cbn [app]. rewrite <- El. done.
    + cbn [Z.eqb app]. done.
    + destruct ho as [node k u x names nodes _ _ _ _ -> ->]. cbn [w_streams] in *. rewrite app_length in *. cbn [length] in *.
      destruct (Z.eqb_spec (Z.of_nat (S (length (w_streams w)))) 0); [lia|]. cbn [app]. split_and!; [lia| |].
      * constructor; [|done]. rewrite IH3. lia.
      * intros h. rewrite elem_of_cons, IH3. lia.
  - destruct (IH hw) as (IH1 & IH2 & IH3). rewrite given_cons.
    assert (Eg : match c, AFailed with COpen _ _, ANum h => if (h =? 0)%Z then [] else [h] | _, _ => [] end = ([] : list Z)) by by destruct c.
    rewrite Eg. done.
Qed.
Definition open_at (w : world) (h : Z) : Prop :=
  exists m, w_streams w !! Z.to_nat (h - 1) = Some m /\ sm_open m = true.
Lemma closed_cons c a l :
  closed ((c, a) :: l) = (match c, a with CClose h, ANum _ => [h] | _, _ => [] end) ++ closed l.
Proof. reflexivity. Qed.
Lemma runs_shut w l w' h :
  ok w -> runs w l w' -> (exists m, w_streams w !! Z.to_nat (h - 1) = Some m /\ sm_open m = false) -> ~ open_at w' h.
Proof.
  intros hw H. induction H as [w|w c a w1 l w2 hc hr IH|w c t l w2 hc hr IH]; intros (m0 & hm0 & ho0).
  - intros (m1 & hm1 & ho1). congruence.
  - apply IH; [by eapply perform_ok|].
    destruct (perform_cases _ _ _ _ hw hc) as [(h0 & Eh & [ht|[-> _]])|(n & md & -> & [[-> _]|(h0 & -> & hopd)])].
    + destruct ht as [j mj fj mj' fj' op1 g1 g2 g3 g4 -> _ _ _ _]. exists m0. cbn.
      destruct (decide (j = Z.to_nat (h - 1))) as [->|nj]; [congruence|]. by rewrite list_lookup_insert_ne.
    + by exists m0.
    + by exists m0.
    + destruct hopd as [node k u y names nodes _ _ _ _ _ ->]. exists m0. cbn. split; [|done].
      by apply lookup_app_l_Some.
  - apply IH; [done|]. by exists m0.
Qed.
Lemma runs_closed w l w' h :
  ok w -> runs w l w' -> (1 <= h)%Z ->
  ((h <= Z.of_nat (length (w_streams w)))%Z -> open_at w h) ->
  (h <= Z.of_nat (length (w_streams w')))%Z -> (open_at w' h <-> h ∉ closed l).
Proof.
  intros hw H hh. induction H as [w|w c a w1 l w2 hc hr IH|w c t l w2 hc hr IH]; intros ho hl.
  - split; [intros _; apply not_elem_of_nil|auto].
  - assert (hw1 := perform_ok _ _ _ _ hw hc). rewrite closed_cons.
    destruct (perform_cases _ _ _ _ hw hc) as [(h0 & Eh & ht)|(n & md & -> & hop)].
    + destruct ht as [ht|[-> hnone]].
      * assert (El := touched_length _ _ _ _ ht).
        destruct ht as [i m f m' f' op h1 h2 h3 h4 -> (_ & _ & _ & _ & hop) hiff _ _].
        assert (Ei := ok_at _ _ _ hw h1).
        assert (dc : c = CClose h \/ c <> CClose h).
        { destruct c; try (by right). destruct (decide (h5 = h)) as [->|]; [by left|right; congruence]. }
        destruct dc as [->|nc].
        -- cbn [handle_of] in Eh. injection Eh as <-.
           assert (Ea : exists z, a = ANum z).
           { cbn [perform] in hc. unfold as_num in hc. destruct (fclose w h); cbn in hc; try done. injection hc as <- _. by eexists. }
           destruct Ea as [z ->]. cbn [app]. rewrite elem_of_cons. split; [|intros hn; exfalso; apply hn; by left].
           intros hopen. exfalso.
           eapply (runs_shut _ _ _ h hw1 hr); [|exact hopen].
           exists m'. cbn. replace (Z.to_nat (h - 1)) with i by lia. rewrite list_lookup_insert by by eapply lookup_lt_Some.
           split; [done|]. rewrite hop. by apply hiff.
        -- assert (Ec : h ∉ match c, a with CClose h, ANum _ => [h] | _, _ => [] end).
           { destruct c, a; try apply not_elem_of_nil. rewrite elem_of_list_singleton. congruence. }
           rewrite elem_of_app. rewrite IH; [naive_solver|done| |done].
           rewrite El. intros hl1. destruct (ho hl1) as (m1 & hm1 & ho1).
           destruct (decide (i = Z.to_nat (h - 1))) as [->|ni].
           ++ exists m'. cbn. rewrite list_lookup_insert by by eapply lookup_lt_Some. split; [done|]. rewrite hop.
              destruct op; [done|]. exfalso. destruct hiff as [hiff _]. assert (E := hiff eq_refl). subst c.
              cbn [handle_of] in Eh. apply nc. f_equal. lia.
           ++ exists m1. cbn. by rewrite list_lookup_insert_ne.
      * assert (Ec : match c, a with CClose h, ANum _ => [h] | _, _ => [] end = ([] : list Z)).
        { destruct c; try done. cbn [handle_of] in Eh. injection Eh as ->. cbn [perform] in hc. unfold fclose, on_stream in hc.
          by rewrite hnone in hc. }
        rewrite Ec. cbn [app]. apply IH; done.
    + cbn [app]. apply IH; try done. destruct hop as [[-> _]|(h0 & _ & [node k u x names nodes _ _ _ _ -> ->])]; [done|].
      cbn [w_streams]. rewrite app_length. cbn [length]. intros hl1. unfold open_at. cbn [w_streams].
      destruct (decide (h = Z.of_nat (S (length (w_streams w))))) as [->|ne].
      * exists (mode_stream node k u). split; [|done]. replace (Z.to_nat _) with (length (w_streams w)) by lia.
        apply list_lookup_middle. done.
      * destruct ho as (m1 & hm1 & ho1); [lia|]. exists m1. split; [|done]. by apply lookup_app_l_Some.
  - rewrite closed_cons. assert (Ec : match c, AFailed with CClose h, ANum _ => [h] | _, _ => [] end = ([] : list Z)) by by destruct c.
    rewrite Ec. cbn [app]. by apply IH.
Qed.

(** ** No undefined behaviour *)
Definition apart (m : stream) : Prop := sm_rd m && sm_wr m = false.
Lemma parse_plus md k x : parse_mode md = Some (k, true, x) -> "+"%char ∈ md.
Proof.
  unfold parse_mode. destruct (c_str md) as [|c rest] eqn:E; [done|].
  repeat case_match; try done; intros EH; injection EH as _ Eu _;
    apply (c_str_sub md); rewrite E; right; apply (has_elem "+"%char) in Eu;
    (apply elem_of_list_lookup in Eu as [i hi]; apply lookup_take_Some in hi as [hi _]; by apply elem_of_list_lookup_2 in hi).
Qed.
Lemma runs_apart w l w' :
  ok w -> runs w l w' -> Forall (fun p => ~ opens_update p) l ->
  (forall i m, w_streams w !! i = Some m -> apart m) -> (forall i m, w_streams w' !! i = Some m -> apart m).
Proof.
  intros hw H. induction H as [w|w c a w1 l w2 hc hr IH|w c t l w2 hc hr IH]; intros hl ha; [done| |].
  - apply Forall_cons in hl as [hl1 hl]. apply IH; [by eapply perform_ok|done|].
    destruct (perform_cases _ _ _ _ hw hc) as [(h0 & Eh & [ht|[-> _]])|(n & md & -> & [[-> _]|(h0 & -> & ho)])]; try done.
    + destruct ht as [i m f m' f' op h1 h2 h3 h4 -> (_ & e1 & e2 & _) _ _ _]. intros j mj hj.
      apply touch_lookup in hj as [(-> & -> & _)|[_ hj]]; [|by eapply ha]. unfold apart. rewrite e1, e2. by eapply ha.
    + destruct ho as [node k u x names nodes hp _ _ _ -> ->]. intros j mj hj. cbn in hj.
      apply lookup_app_Some in hj as [hj|[_ hj]]; [by eapply ha|].
      apply list_lookup_singleton_Some in hj as [_ <-]. destruct u; [|by destruct k].
      exfalso. apply hl1. exists n, md. eexists. split; [done|]. by eapply parse_plus.
  - apply Forall_cons in hl as [hl1 hl]. by apply IH.
Qed.

Definition fine {A} (r : res A) : Prop := r <> UB /\ r <> Fuel.
Lemma c_read_fine n m f : tidy m -> apart m -> fine (c_read n m f).
Proof.
  intros [t1 t2] ha. unfold c_read, apart, fine in *. destruct (sm_rd m); [|done]. cbn in *.
  destruct (sm_last m); try (by destruct (sm_eof m)). rewrite t2 in ha; done.
Qed.
Lemma c_read_open n m f r m' : c_read n m f = Ok (r, m') -> length r <= length f - sm_pos m /\ sm_pos m' = sm_pos m + length r.
Proof.
  unfold c_read. repeat case_match; try done; intros [= <- <-]; cbn [length sm_pos]; rewrite ?take_length, ?drop_length; lia.
Qed.
Lemma apart_kin m m' : kin (sm_open m) m m' -> apart m -> apart m'.
Proof. unfold kin, apart. intros (_ & -> & -> & _). done. Qed.
Lemma reads_loop_fine fuel m f len v :
  tidy m -> apart m -> length f - sm_pos m < fuel -> fine (reads_loop fuel m f len v).
Proof.
  revert m len v. induction fuel as [|fuel IH]; intros m len v ht ha hf; [lia|]. cbn [reads_loop].
  destruct (_ || _); [|done]. destruct (c_read_fine 1 m f ht ha) as [h1 h2].
  destruct (c_read 1 m f) as [[bs m1]| | |] eqn:E; cbn [rbind fst snd]; try done.
  destruct (c_read_kin _ _ _ _ _ E) as [hk1 hk2]. destruct (c_read_open _ _ _ _ _ E) as [hk3 hk4].
  destruct bs as [|b bs]; [done|]. apply IH; [auto|by eapply apart_kin|]. cbn [length] in *. lia.
Qed.
Lemma c_gets_fine n m f : tidy m -> apart m -> fine (c_gets n m f).
Proof.
  intros [t1 t2] ha. unfold c_gets, apart, fine in *. destruct (n =? 1); [done|]. destruct (sm_rd m); [|done]. cbn in *.
  destruct (sm_last m); try (by destruct (sm_eof m)). rewrite t2 in ha; done.
Qed.
Lemma gets_loop_fine fuel m f d sz v :
  tidy m -> apart m -> (1 <= Z.of_nat fuel)%Z -> (sz - d <= READ_SIZE * (Z.of_nat fuel - 1))%Z -> fine (gets_loop fuel m f d sz v).
Proof.
  revert m d v. induction fuel as [|fuel IH]; intros m d v ht ha h1 h2; [lia|]. cbn [gets_loop].
  destruct (Z.ltb_spec d sz); [|done]. set (n := Z.min _ _).
  destruct (c_gets_fine (Z.to_nat n) m f ht ha) as [h3 h4].
  destruct (c_gets _ m f) as [[bs m1]| | |] eqn:E; cbn [rbind fst snd]; try done.
  destruct (c_gets_kin _ _ _ _ _ E) as [hk1 hk2].
  apply IH; [auto|by eapply apart_kin|unfold READ_SIZE in *; lia|]. subst n. unfold READ_SIZE in *. lia.
Qed.
Lemma c_write_fine bs m f : tidy m -> apart m -> fine (c_write bs m f).
Proof.
  intros [t1 t2] ha. unfold c_write, apart, fine in *. destruct (sm_wr m); [|done]. cbn in *. rewrite andb_true_r in ha.
  destruct (sm_last m); try (by destruct (sm_eof m)). rewrite t1 in ha; done.
Qed.
Lemma on_stream_fine {A} w h (k : nat -> stream -> str -> res A) m f :
  w_handles w !! h = Some (Some (Z.to_nat (h - 1))) -> w_streams w !! Z.to_nat (h - 1) = Some m -> sm_open m = true ->
  w_nodes w !! sm_node m = Some f -> fine (k (Z.to_nat (h - 1)) m f) -> fine (on_stream w h k).
Proof. intros h1 h2 h3 h4 hk. unfold on_stream. by rewrite h1, h2, h3, h4. Qed.
Lemma perform_fine w c h :
  ok w -> handle_of c = Some h -> (1 <= h <= Z.of_nat (length (w_streams w)))%Z -> open_at w h ->
  (forall i m, w_streams w !! i = Some m -> apart m) -> (forall h0, c <> CReadb h0) -> fine (perform w c).
Proof.
  intros hw Eh hr (m & h2 & h3) ha hb. destruct (ok_find _ _ hw hr) as (m0 & f & h1 & h2' & h4).
  rewrite h2 in h2'. injection h2' as <-. assert (ht := ok_tidy _ hw _ _ h2). assert (hap := ha _ _ h2).
  assert (num : forall r, fine r -> fine (as_num r)) by (intros [] []; done).
  assert (txt : forall r, fine r -> fine (as_text r)) by (intros [] []; done).
  assert (bnd : forall A B (r : res A) (g : A -> res B), fine r -> (forall x, fine (g x)) -> fine (let! x := r in g x)).
  { intros A B [] g [] hg; try done. apply hg. }
  assert (Ok_fine : forall A (x : A), fine (Ok x)) by done.
  destruct c; cbn [handle_of] in Eh; try done; injection Eh as ->; cbn [perform];
    try (apply num); try (apply txt); try (eapply on_stream_fine; try done).
  - destruct (c_seek _ _ _ _); done.
  - unfold fflush. rewrite h1. eapply on_stream_fine; done.
  - apply bnd; [|done]. apply reads_loop_fine; try done. lia.
  - apply bnd; [|done]. by apply c_read_fine.
  - by destruct (hb h).
  - apply bnd; [|done]. by apply c_write_fine.
  - apply bnd; [|done]. by apply c_write_fine.
  - apply bnd; [by apply c_write_fine|]. intros x. destruct (x.1.1); done.
  - apply bnd; [|done]. by apply c_write_fine.
  - apply bnd; [|done]. by apply c_read_fine.
  - apply bnd; [|done]. eapply on_stream_fine; try done. apply bnd; [|done]. apply gets_loop_fine; try done; unfold READ_SIZE.
    + lia.
    + destruct (Z.leb_spec 0 size); [|lia].
      assert (E := Z.div_mod size 1024). assert (0 <= size / 1024)%Z by (apply Z.div_pos; lia).
      assert (size mod 1024 < 1024)%Z by (apply Z.mod_pos_bound; lia). lia.
Qed.

(** ** Files that are only read *)
Lemma runs_content w l w' name :
  ok w -> runs w l w' -> Forall (fun p => ~ opens_to_write name p) l ->
  (forall i m, w_streams w !! i = Some m -> sm_wr m = true -> w_names w !! name <> Some (sm_node m)) ->
  content w' name = content w name.
Proof.
  intros hw H. induction H as [w|w c a w1 l w2 hc hr IH|w c t l w2 hc hr IH]; intros hl ha; [done| |].
  - apply Forall_cons in hl as [hl1 hl].
    assert (goal : content w1 name = content w name /\
      (forall i m, w_streams w1 !! i = Some m -> sm_wr m = true -> w_names w1 !! name <> Some (sm_node m))).
    { destruct (perform_cases _ _ _ _ hw hc) as [(h0 & Eh & [ht|[-> _]])|(n & md & -> & [[-> _]|(h0 & -> & ho)])]; try done.
      - destruct ht as [i m f m' f' op h1 h2 h3 h4 -> (en & _ & ew & _) _ _ hf]. split.
        + unfold content. cbn. destruct (w_names w !! name) as [j|] eqn:Ej; [|done].
          destruct (decide (j = sm_node m')) as [->|nj]; [|by rewrite list_lookup_insert_ne].
          rewrite list_lookup_insert by (rewrite en; by eapply lookup_lt_Some).
          destruct (sm_wr m) eqn:Ew; [|rewrite en, hf; congruence]. exfalso. apply (ha _ _ h2 Ew). congruence.
        + intros j mj hj. apply touch_lookup in hj as [(-> & -> & _)|[_ hj]]; [|by apply (ha j)].
          rewrite en, ew. by apply (ha j).
      - destruct ho as [node k u x names nodes hp hn hd hcase -> ->].
        assert (hm : c_str n = name -> k = MRead /\ u = false).
        { intros En. assert (hk : k = MRead).
          { destruct k; [done|exfalso..]; apply hl1; exists n, md; eexists; (split_and!; [done|done|left]);
              unfold parse_mode in hp; destruct md as [|c md]; cbn [c_str] in hp; try done;
              (destruct (ascii_dec c NUL); [done|]); cbn [hd_error]; intros [= ->]; done. }
          split; [done|]. destruct u; [|done]. exfalso. apply hl1. exists n, md. eexists. split_and!; [done|done|right].
          by eapply parse_plus. }
        destruct hcase as [(-> & hi & _ & ->)|(hi & hk & -> & -> & ->)].
        + split.
          * unfold content. cbn. destruct (w_names w !! name) as [j|] eqn:Ej; [|done].
            destruct (decide (c_str n = name)) as [En|nn]; [destruct (hm En) as [-> _]; done|].
            destruct k; try done. apply list_lookup_insert_ne. intros ->. apply nn. by eapply (ok_own _ hw).
          * intros j mj hj. cbn in hj |- *. apply lookup_app_Some in hj as [hj|[_ hj]]; [by apply (ha j)|].
            apply list_lookup_singleton_Some in hj as [_ <-]. cbn. intros hwr Ej.
            assert (En : c_str n = name) by by eapply (ok_own _ hw). destruct (hm En) as [-> ->]. done.
        + assert (nn : c_str n <> name) by (intros En; destruct (hm En) as [-> _]; done). split.
          * unfold content. cbn. rewrite lookup_insert_ne by done. destruct (w_names w !! name) as [j|] eqn:Ej; [|done].
            apply lookup_app_l. by eapply ok_name.
          * intros j mj hj. cbn in hj |- *. rewrite lookup_insert_ne by done.
            apply lookup_app_Some in hj as [hj|[_ hj]]; [by apply (ha j)|].
            apply list_lookup_singleton_Some in hj as [_ <-]. cbn. intros _ Ej. apply (ok_name _ hw) in Ej. lia. }
    destruct goal as [g1 g2]. rewrite <- g1. apply IH; [by eapply perform_ok|done..].
  - apply Forall_cons in hl as [hl1 hl]. by apply IH.
Qed.
