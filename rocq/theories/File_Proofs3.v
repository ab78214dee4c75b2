(** Proofs about files: the library object. *)
From Verif Require Import Base Text_Model Value_Model Value_Proofs File_Model File_Spec File_Proofs File_Proofs2.

(** ** A handle on an open stream *)
Record sits (w : world) (h : Z) (i : nat) (m : stream) (f : str) : Prop := Sits {
  st_h : w_handles w !! h = Some (Some i); st_s : w_streams w !! i = Some m; st_o : sm_open m = true;
  st_n : w_nodes w !! sm_node m = Some f }.
Lemma on_sits {A} w h i m f (k : nat -> stream -> str -> res A) : sits w h i m f -> on_stream w h k = k i m f.
Proof. intros [h1 h2 h3 h4]. unfold on_stream. by rewrite h1, h2, h3, h4. Qed.
Lemma sits_touch w h i m f m' f' : sits w h i m f -> kin true m m' -> sits (touch w i m' f') h i m' f'.
Proof.
  intros [h1 h2 h3 h4] (hn & _ & _ & _ & ho). split; cbn; try done.
  - rewrite list_lookup_insert by by eapply lookup_lt_Some. done.
  - rewrite list_lookup_insert; [done|]. rewrite hn. by eapply lookup_lt_Some.
Qed.
Lemma touch_touch w i m f m' f' : sm_node m' = sm_node m -> touch (touch w i m f) i m' f' = touch w i m' f'.
Proof. intros E. unfold touch. cbn. by rewrite E, !list_insert_insert. Qed.
Lemma set_stream_sits w h i m f m' : sits w h i m f -> sm_node m' = sm_node m -> set_stream w i m' = touch w i m' f.
Proof. intros [h1 h2 h3 h4] E. by apply set_stream_touch with m. Qed.
Lemma touch_self w h i m f : sits w h i m f -> touch w i m f = w.
Proof. intros [h1 h2 h3 h4]. symmetry. by apply same_touch. Qed.

(** ** Opening *)
Definition kind_of (a : access) : mkind * bool :=
  match a with
  | Append => (MAppend, false) | AppendUpdate => (MAppend, true) | ReadOnly | ReadWrite => (MRead, false)
  | ReadUpdate => (MRead, true) | WriteOnly => (MWrite, false) | WriteUpdate => (MWrite, true)
  end.
Lemma access_parse a : parse_mode (access_mode a) = Some (fst (kind_of a), snd (kind_of a), false).
Proof. by destruct a. Qed.
Definition others_same (name : str) (w w' : world) : Prop := forall n, n <> name -> content w' n = content w n.

Lemma fopen_usable w name a f0 :
  ok w -> usable w name -> content w name = f0 -> (fst (kind_of a) = MRead -> f0 <> None) ->
  exists h node w1, fopen w name (access_mode a) = (h, w1) /\ h <> 0%Z /\ ok w1 /\ w_names w1 !! name = Some node /\
    others_same name w w1 /\ w_deny w1 = w_deny w /\
    sits w1 h (length (w_streams w)) (mode_stream node (fst (kind_of a)) (snd (kind_of a)))
         (match fst (kind_of a) with MWrite => [] | _ => match f0 with Some f => f | None => [] end end).
Proof.
  intros hw (hu1 & hu2 & hu3) hc hr.
  assert (hcs := c_str_id _ hu1).
  destruct (fopen w name (access_mode a)) as [h w1] eqn:Eo.
  assert (hop : opened w name (access_mode a) h w1).
  { destruct (fopen_cases w name (access_mode a) hw) as [E|E]; [|rewrite Eo in E; exact E]. exfalso.
    assert (Es : length (w_streams (snd (fopen w name (access_mode a)))) = S (length (w_streams w))); [|rewrite E in Es; cbn in Es; lia].
    clear E. unfold fopen. rewrite access_parse, hcs, hu3. rewrite bool_decide_eq_false_2 by done. cbn [orb].
    unfold content in hc. destruct (w_names w !! name) as [i|] eqn:Ei.
    - destruct (fst (kind_of a)); unfold new_handle; cbn; by rewrite app_length, Nat.add_comm.
    - destruct (fst (kind_of a)); [subst f0; by destruct (hr eq_refl)|..]; unfold new_handle; cbn; by rewrite app_length, Nat.add_comm. }
  assert (hw1 := opened_ok _ _ _ _ _ hw hop).
  destruct hop as [node k u x names nodes hp hn hd hcase Eh ->].
  rewrite access_parse in hp. injection hp as <- <- <-. rewrite hcs in *.
  exists h, node. eexists. split; [done|]. split; [lia|]. split; [done|].
  assert (En : names !! name = Some node).
  { destruct hcase as [(-> & hi & _)|(_ & _ & _ & -> & _)]; [done|apply lookup_insert]. }
  split; [done|]. split; [|split; [done|]].
  - intros n nn. unfold content. cbn. destruct hcase as [(-> & hi & _ & ->)|(hi & hk & -> & -> & ->)].
    + destruct (w_names w !! n) as [j|] eqn:Ej; [|done]. destruct (fst (kind_of a)); try done.
      apply list_lookup_insert_ne. intros ->. apply nn. by eapply (ok_own _ hw).
    + rewrite lookup_insert_ne by done. destruct (w_names w !! n) as [j|] eqn:Ej; [|done].
      apply lookup_app_l. by eapply ok_name.
  - split; cbn.
    + by rewrite lookup_insert.
    + by apply list_lookup_middle.
    + done.
    + unfold content in hc. destruct hcase as [(-> & hi & _ & ->)|(hi & hk & -> & -> & ->)].
      * rewrite hi in hc. destruct (lookup_lt_is_Some_2 (w_nodes w) node) as [f hf]; [by eapply ok_name|].
        rewrite hf in hc. subst f0. destruct (fst (kind_of a)); [done| |done].
        apply list_lookup_insert. by eapply lookup_lt_Some.
      * rewrite hi in hc. subst f0. rewrite lookup_app_r, Nat.sub_diag by done. by destruct (fst (kind_of a)).
Qed.
Lemma c_seek_end m f :
  c_seek 0 2 m f = Some (Stream (sm_node m) (length f) (sm_rd m) (sm_wr m) (sm_app m) (sm_open m) false LNone).
Proof. unfold c_seek. cbn. rewrite Z.add_0_r. destruct (Z.ltb_spec (Z.of_nat (length f)) 0); [lia|]. by rewrite Nat2Z.id. Qed.
Lemma c_seek_set k m f :
  (0 <= k)%Z -> c_seek k 0 m f = Some (Stream (sm_node m) (Z.to_nat k) (sm_rd m) (sm_wr m) (sm_app m) (sm_open m) false LNone).
Proof. intros hk. unfold c_seek. cbn. destruct k; done. Qed.
Lemma file_open_fresh w name md h w1 i node k u f :
  fopen w name md = (h, w1) -> h <> 0%Z -> sits w1 h i (mode_stream node k u) f ->
  file_open no_file w name md = Ok (true, File md name h (wrap 32 (Z.of_nat (length f))), w1).
Proof.
  intros Eo hh hs. unfold file_open. cbn [no_file fo_handle]. cbn [Z.eqb negb]. rewrite Eo. cbn [fst snd].
  unfold fseek. rewrite (on_sits _ _ _ _ _ _ hs). rewrite c_seek_end. cbn [rbind fst snd].
  set (m1 := Stream _ _ _ _ _ _ _ _). rewrite (set_stream_sits _ _ _ _ _ m1 hs) by done.
  assert (hs1 : sits (touch w1 i m1 f) h i m1 f) by by eapply sits_touch.
  unfold ftell. rewrite (on_sits _ _ _ _ _ _ hs1). cbn [rbind fst snd]. rewrite (on_sits _ _ _ _ _ _ hs1).
  rewrite c_seek_set by done. cbn [rbind fst snd].
  rewrite (set_stream_sits _ _ _ _ _ _ hs1) by done. rewrite touch_touch by done.
  destruct (Z.eqb_spec h 0); [done|]. cbn [negb sm_pos m1].
  do 2 f_equal. apply (touch_self _ h). exact hs.
Qed.
Lemma file_new_usable w name a f0 :
  ok w -> usable w name -> content w name = f0 -> (fst (kind_of a) = MRead -> f0 <> None) ->
  exists h node w1 f, file_new w name a = Ok (File (access_mode a) name h (wrap 32 (Z.of_nat (length f))), w1) /\
    h <> 0%Z /\ ok w1 /\ w_names w1 !! name = Some node /\ others_same name w w1 /\ w_deny w1 = w_deny w /\
    f = (match fst (kind_of a) with MWrite => [] | _ => match f0 with Some f => f | None => [] end end) /\
    sits w1 h (length (w_streams w)) (mode_stream node (fst (kind_of a)) (snd (kind_of a))) f.
Proof.
  intros hw hu hc hr. destruct (fopen_usable w name a f0 hw hu hc hr) as (h & node & w1 & Eo & hh & hw1 & En & ho & hd & hs).
  exists h, node, w1. eexists. split_and!; try done. unfold file_new. rewrite (file_open_fresh _ _ _ _ _ _ _ _ _ _ Eo hh hs). done.
Qed.

(** ** Writing one thing after the other *)
Definition item_bytes (it : item) : str :=
  match it with IInt z => int_bytes z | IBool b => [byte (if b then 1 else 0)] | IText s => s end.
Definition all_bytes (l : list item) : str := concat (map item_bytes l).
Definition writing (m : stream) (f : str) : Prop :=
  sm_wr m = true /\ (sm_app m = true \/ sm_pos m = length f) /\ sm_last m <> LRead.
Lemma splice_end f bs : splice (length f) bs f = f ++ bs.
Proof.
  unfold splice. destruct bs as [|b bs]; [by rewrite app_nil_r|].
  rewrite Nat.sub_diag. cbn [replicate]. rewrite app_nil_r, firstn_all, drop_ge by (cbn; lia). by rewrite app_nil_r.
Qed.
Lemma c_write_end bs m f :
  writing m f -> exists m', c_write bs m f = Ok (true, m', f ++ bs) /\ kin (sm_open m) m m' /\ writing m' (f ++ bs).
Proof.
  intros (hw & hp & hl). unfold c_write. rewrite hw. cbn [negb].
  assert (E : (if sm_app m then length f else sm_pos m) = length f) by (destruct hp as [->| ->]; [done|by destruct (sm_app m)]).
  rewrite E, splice_end.
  destruct (sm_last m), (sm_eof m); try done; (eexists; split_and!; [reflexivity|done|]);
    (split_and!; [done|right; by rewrite app_length|done]).
Qed.
Lemma put_end o w i m f it :
  sits w (fo_handle o) i m f -> writing m f -> fit it ->
  exists m', put o w it = Ok (touch w i m' (f ++ item_bytes it)) /\ kin true m m' /\ writing m' (f ++ item_bytes it).
Proof.
  intros hs hwr hf. assert (hop := st_o _ _ _ _ _ hs).
  assert (step : forall bs, exists m', c_write bs m f = Ok (true, m', f ++ bs) /\ wrote w i (true, m', f ++ bs) = touch w i m' (f ++ bs)
                       /\ kin true m m' /\ writing m' (f ++ bs)).
  { intros bs. destruct (c_write_end bs m f hwr) as (m' & E & hk & hm). exists m'. rewrite hop in hk. split_and!; done. }
  destruct it as [z|b|s]; cbn [put item_bytes].
  - destruct (step (int_bytes z)) as (m' & E1 & E2 & hk & hm). exists m'. split; [|done].
    unfold file_write_int, fwritei, fwrite_bytes. rewrite (on_sits _ _ _ _ _ _ hs), E1. cbn [rbind fst snd]. by rewrite E2.
  - destruct (step [byte (if b then 1 else 0)]) as (m' & E1 & E2 & hk & hm). exists m'. split; [|done].
    unfold file_write_bool, fwriteb, fwrite_bytes. rewrite (on_sits _ _ _ _ _ _ hs), E1. cbn [rbind fst snd]. by rewrite E2.
  - destruct hf as [hf _]. destruct (step s) as (m' & E1 & E2 & hk & hm). exists m'. split; [|done].
    unfold file_write_string, fwrites. rewrite (c_str_id _ hf), (on_sits _ _ _ _ _ _ hs), E1. cbn [rbind fst snd]. by rewrite E2.
Qed.
Lemma kin_true_trans m m' m'' : kin true m m' -> kin true m' m'' -> kin true m m''.
Proof. unfold kin. intros (?&?&?&?&?) (?&?&?&?&?). split_and!; congruence. Qed.
Lemma put_all_end o w i m f l :
  sits w (fo_handle o) i m f -> writing m f -> Forall fit l ->
  exists m', put_all o w l = Ok (touch w i m' (f ++ all_bytes l)) /\ kin true m m' /\ writing m' (f ++ all_bytes l).
Proof.
  revert w m f. induction l as [|it l IH]; intros w m f hs hwr hl.
  - exists m. unfold all_bytes. cbn. rewrite app_nil_r, (touch_self _ _ _ _ _ hs). split_and!; try done.
    rewrite <- (st_o _ _ _ _ _ hs). apply kin_refl.
  - apply Forall_cons in hl as [hl1 hl]. destruct (put_end _ _ _ _ _ _ hs hwr hl1) as (m1 & E & hk & hm).
    destruct (IH (touch w i m1 (f ++ item_bytes it)) m1 (f ++ item_bytes it)) as (m2 & E2 & hk2 & hm2);
      [by eapply sits_touch|done|done|].
    exists m2. cbn [put_all]. rewrite E. cbn [rbind]. rewrite E2.
    assert (Eb : (f ++ item_bytes it) ++ all_bytes l = f ++ all_bytes (it :: l)) by (unfold all_bytes; cbn; by rewrite <- app_assoc).
    rewrite Eb in *. split_and!; [|by eapply kin_true_trans|done]. rewrite touch_touch; [done|by destruct hk2].
Qed.

(** ** Reading *)
Definition reading (m : stream) : Prop := sm_rd m = true /\ sm_eof m = false /\ sm_last m <> LWrite.
Lemma c_read_reading n m f :
  reading m -> exists m', c_read n m f = Ok (take n (drop (sm_pos m) f), m') /\ kin (sm_open m) m m' /\
    sm_pos m' = sm_pos m + length (take n (drop (sm_pos m) f)) /\ sm_eof m' = (length (drop (sm_pos m) f) <? n) /\ sm_last m' = LRead.
Proof.
  intros (hr & he & hl). unfold c_read. rewrite hr, he. cbn [negb].
  assert (E : (length (take n (drop (sm_pos m) f)) <? n) = (length (drop (sm_pos m) f) <? n)).
  { rewrite take_length. destruct (Nat.ltb_spec (length (drop (sm_pos m) f)) n);
      destruct (Nat.ltb_spec (n `min` length (drop (sm_pos m) f)) n); try done; lia. }
  destruct (sm_last m) eqn:El; [| |done]; (eexists; split_and!; [reflexivity|unfold kin; cbn; by rewrite hr|done|done|done]).
Qed.
(** What is asked for: [None] for everything. *)
Definition wanted (len : Z) (s : str) : str := if (len =? -1)%Z then s else take (Z.to_nat len) s.
Definition met_end (len : Z) (s : str) : bool := (len =? -1)%Z || (Z.of_nat (length s) <? len)%Z.
Lemma wanted_nil len : wanted len [] = [].
Proof. unfold wanted. rewrite take_nil. by destruct (len =? -1)%Z. Qed.
Lemma reads_loop_reading fuel m f len v :
  reading m -> length f - sm_pos m < fuel -> (len = -1 \/ 0 <= len)%Z ->
  exists m', reads_loop fuel m f len v = Ok (v ++ wanted len (drop (sm_pos m) f), m') /\ kin (sm_open m) m m' /\
    sm_pos m' = sm_pos m + length (wanted len (drop (sm_pos m) f)) /\ sm_eof m' = met_end len (drop (sm_pos m) f) /\
    sm_last m' <> LWrite.
Proof.
  revert m len v. induction fuel as [|fuel IH]; intros m len v hr hf hl; [lia|]. cbn [reads_loop].
  destruct ((0 <? len)%Z || (len =? -1)%Z) eqn:El.
  - destruct (c_read_reading 1 m f hr) as (m1 & E & hk & hp & he & hla). rewrite E. cbn [rbind fst snd].
    destruct (drop (sm_pos m) f) as [|b r] eqn:Ed.
    + exists m1. cbn in hp, he |- *. rewrite wanted_nil, app_nil_r. unfold met_end. cbn [length].
      split_and!; try done; [|congruence].
      rewrite he. symmetry. destruct (Z.eqb_spec len (-1)); [done|]. rewrite orb_false_r in El. cbn [orb]. exact El.
    + cbn in E, hp, he |- *. rewrite take_0 in hp |- *. cbn [length] in hp. assert (hr1 : reading m1).
      { destruct hr as (h1 & h2 & h3). destruct hk as (_ & k1 & _). split_and!; [congruence|done|congruence]. }
      assert (Elen : length (drop (sm_pos m) f) = S (length r)) by by rewrite Ed. rewrite drop_length in Elen.
      assert (Ed1 : drop (sm_pos m1) f = r) by (rewrite hp, <- drop_drop, Ed; done).
      assert (hl' : (0 < len \/ len = -1)%Z) by (apply orb_prop in El as [El%Z.ltb_lt|El%Z.eqb_eq]; auto).
      set (len' := (if (0 <? len)%Z then len - 1 else len)%Z).
      destruct (IH m1 len' (v ++ [b])) as (m2 & E2 & hk2 & hp2 & he2 & hl2); [done|lia| |].
      { subst len'. destruct (Z.ltb_spec 0 len); lia. }
      rewrite Ed1 in E2, hp2, he2. exists m2.
      assert (Ew : wanted len (b :: r) = b :: wanted len' r).
      { unfold wanted. subst len'. destruct (Z.ltb_spec 0 len).
        - destruct (Z.eqb_spec len (-1)); [lia|]. destruct (Z.eqb_spec (len - 1) (-1)); [lia|].
          replace (Z.to_nat len) with (S (Z.to_nat (len - 1))) by lia. done.
        - destruct (Z.eqb_spec len (-1)); [done|lia]. }
      assert (Em : met_end len (b :: r) = met_end len' r).
      { unfold met_end. subst len'. cbn [length]. destruct (Z.ltb_spec 0 len).
        - destruct (Z.eqb_spec len (-1)); [lia|]. destruct (Z.eqb_spec (len - 1) (-1)); [lia|]. cbn [orb].
          destruct (Z.ltb_spec (Z.of_nat (S (length r))) len), (Z.ltb_spec (Z.of_nat (length r)) (len - 1)); try done; lia.
        - destruct (Z.eqb_spec len (-1)); [done|lia]. }
      rewrite Ew, Em. split_and!; [| |rewrite hp2, hp; cbn; lia|done|done].
      * rewrite E2, <- app_assoc. done.
      * by eapply kin_trans.
  - apply orb_false_iff in El as [El1%Z.ltb_ge El2%Z.eqb_neq]. assert (len = 0)%Z as -> by lia.
    exists m. unfold wanted, met_end. cbn. rewrite app_nil_r. destruct hr as (h1 & h2 & h3).
    split_and!; try done; try lia. rewrite h2. symmetry. apply Z.ltb_ge. lia.
Qed.
Lemma freads_reading w h i m f len :
  sits w h i m f -> reading m -> (len = -1 \/ 0 <= len)%Z ->
  exists m', freads w h len = Ok (wanted len (drop (sm_pos m) f), touch w i m' f) /\ kin true m m' /\
    sm_pos m' = sm_pos m + length (wanted len (drop (sm_pos m) f)) /\ sm_eof m' = met_end len (drop (sm_pos m) f) /\
    sm_last m' <> LWrite.
Proof.
  intros hs hr hl. destruct (reads_loop_reading (S (S (length f))) m f len [] hr) as (m' & E & hk & h1 & h2 & h3); [lia|done|].
  exists m'. rewrite (st_o _ _ _ _ _ hs) in hk. split_and!; try done. unfold freads. rewrite (on_sits _ _ _ _ _ _ hs), E.
  cbn [rbind fst snd app]. rewrite (set_stream_sits _ _ _ _ _ _ hs); [done|by destruct hk].
Qed.

Lemma byte_val z : Z.of_nat (nat_of_ascii (byte z)) = (z mod 256)%Z.
Proof.
  assert (h := Z.mod_pos_bound z 256 ltac:(lia)).
  unfold byte. rewrite nat_ascii_embedding by (assert (Z.to_nat (z mod 256) < Z.to_nat 256) by lia; done).
  lia.
Qed.
Lemma int_bytes_value z : (- 2 ^ 31 <= z < 2 ^ 31)%Z -> wrap 32 (bytes_value (int_bytes z)) = z.
Proof.
  intros hz. unfold int_bytes. cbn [bytes_value]. rewrite !byte_val.
  assert (E : (z mod 256 + 256 * (z / 256 mod 256 + 256 * (z / 65536 mod 256 + 256 * (z / 16777216 mod 256 + 256 * 0))) = z mod 4294967296)%Z).
  { assert (h1 : (z / 65536 = z / 256 / 256)%Z) by (by rewrite Z.div_div by lia).
    assert (h2 : (z / 16777216 = z / 256 / 256 / 256)%Z) by (by rewrite !Z.div_div by lia).
    rewrite h1, h2. change 4294967296%Z with (256 * (256 * (256 * 256)))%Z.
    rewrite (Z.rem_mul_r z 256 (256 * (256 * 256))) by lia. rewrite (Z.rem_mul_r (z / 256) 256 (256 * 256)) by lia.
    rewrite (Z.rem_mul_r (z / 256 / 256) 256 256) by lia. ring. }
  rewrite E. unfold wrap. change (2 ^ 32)%Z with 4294967296%Z. change (2 ^ (32 - 1))%Z with 2147483648%Z.
  change (2 ^ 31)%Z with 2147483648%Z in hz. Z.div_mod_to_equations. lia.
Qed.
Lemma get_reading o w i m f it d r :
  sits w (fo_handle o) i m f -> reading m -> fit it -> f = d ++ item_bytes it ++ r -> sm_pos m = length d ->
  exists m', get o w it = Ok (it, touch w i m' f) /\ kin true m m' /\ reading m' /\ sm_pos m' = length (d ++ item_bytes it).
Proof.
  intros hs hr hf Ef Ep. assert (hop := st_o _ _ _ _ _ hs).
  assert (Ed : drop (sm_pos m) f = item_bytes it ++ r) by by rewrite Ep, Ef, drop_app.
  assert (rd : forall n, n = length (item_bytes it) -> exists m', c_read n m f = Ok (item_bytes it, m') /\ set_stream w i m' = touch w i m' f /\
     kin true m m' /\ reading m' /\ sm_pos m' = length (d ++ item_bytes it)).
  { intros n ->. destruct (c_read_reading (length (item_bytes it)) m f hr) as (m' & E & hk & hp & he & hl).
    rewrite Ed, take_app in E, hp. rewrite hop in hk. exists m'. split_and!; try done.
    - apply (set_stream_sits _ _ _ _ _ _ hs). by destruct hk.
    - destruct hr as (h1 & h2 & h3). destruct hk as (_ & k1 & _). split_and!; [congruence| |congruence].
      rewrite he, Ed, app_length. apply Nat.ltb_ge. lia.
    - rewrite app_length. lia. }
  destruct it as [z|b|s]; cbn [get item_bytes] in *.
  - destruct (rd 4) as (m' & E & Es & hk & hr' & hp); [done|]. exists m'. split; [|done].
    unfold file_read_int, freadi. rewrite (on_sits _ _ _ _ _ _ hs), E. cbn [rbind fst snd].
    by rewrite Es, int_bytes_value.
  - destruct (rd 1) as (m' & E & Es & hk & hr' & hp); [done|]. exists m'. split; [|done].
    unfold file_read_bool, freadb. rewrite (on_sits _ _ _ _ _ _ hs), E. cbn [rbind fst snd]. rewrite Es. by destruct b.
  - destruct (freads_reading _ _ _ _ _ (Z.of_nat (length s)) hs hr) as (m' & E & hk & hp & he & hl); [lia|].
    assert (Ew : wanted (Z.of_nat (length s)) (s ++ r) = s).
    { unfold wanted. destruct (Z.eqb_spec (Z.of_nat (length s)) (-1)); [lia|]. by rewrite Nat2Z.id, take_app. }
    rewrite Ed, Ew in E, hp. exists m'. split_and!; try done.
    + unfold file_read_string. rewrite E. done.
    + destruct hr as (h1 & h2 & h3). destruct hk as (_ & k1 & _). split_and!; [congruence| |done].
      rewrite he, Ed. unfold met_end. destruct (Z.eqb_spec (Z.of_nat (length s)) (-1)); [lia|]. cbn [orb]. apply Z.ltb_ge. rewrite app_length. lia.
    + rewrite app_length. lia.
Qed.
Lemma get_all_reading o w i m f l d r :
  sits w (fo_handle o) i m f -> reading m -> Forall fit l -> f = d ++ all_bytes l ++ r -> sm_pos m = length d ->
  exists m', get_all o w l = Ok (l, touch w i m' f) /\ kin true m m' /\ reading m' /\ sm_pos m' = length (d ++ all_bytes l).
Proof.
  revert w m d. induction l as [|it l IH]; intros w m d hs hr hl Ef Ep.
  - exists m. cbn [get_all]. rewrite (touch_self _ _ _ _ _ hs). split_and!; try done.
    + rewrite <- (st_o _ _ _ _ _ hs). apply kin_refl.
    + by rewrite Ep, app_nil_r.
  - apply Forall_cons in hl as [hl1 hl].
    assert (Eb : all_bytes (it :: l) = item_bytes it ++ all_bytes l) by done. rewrite Eb in Ef.
    destruct (get_reading _ _ _ _ _ it d (all_bytes l ++ r) hs hr hl1) as (m1 & E & hk & hr1 & hp1); [by rewrite Ef, <- !app_assoc|done|].
    destruct (IH (touch w i m1 f) m1 (d ++ item_bytes it)) as (m2 & E2 & hk2 & hr2 & hp2); [by eapply sits_touch|done|done| |done|].
    { by rewrite Ef, <- !app_assoc. }
    exists m2. cbn [get_all]. rewrite E. cbn [rbind fst snd]. rewrite E2. cbn [rbind fst snd]. split_and!; try done.
    + rewrite touch_touch; [done|by destruct hk2].
    + by eapply kin_true_trans.
    + rewrite hp2, Eb. by rewrite <- app_assoc.
Qed.

(** ** Contents after writing and closing *)
Lemma touch_content w h i m f m' f' name :
  ok w -> sits w h i m f -> sm_node m' = sm_node m -> w_names w !! name = Some (sm_node m) ->
  content (touch w i m' f') name = Some f' /\ others_same name w (touch w i m' f').
Proof.
  intros hw hs En Ei. split.
  - unfold content. cbn. rewrite Ei, En, list_lookup_insert; [done|]. eapply lookup_lt_Some. apply hs.
  - intros n nn. unfold content. cbn. destruct (w_names w !! n) as [j|] eqn:Ej; [|done].
    apply list_lookup_insert_ne. rewrite En. intros E. apply nn. subst j. by eapply (ok_own _ hw).
Qed.
Lemma touch_ok w h i m f m' f' : ok w -> sits w h i m f -> sm_node m' = sm_node m -> tidy m' -> ok (touch w i m' f').
Proof.
  intros hw hs En ht. split; cbn [touch w_names w_nodes w_handles].
  - cbn [w_streams touch]. rewrite insert_length. apply hw.
  - cbn [w_streams touch]. rewrite insert_length. apply hw.
  - intros j mj hj. rewrite insert_length. apply touch_lookup in hj as [(-> & -> & _)|[_ hj]].
    + rewrite En. eapply lookup_lt_Some. apply hs.
    + by eapply ok_node.
  - intros n j. rewrite insert_length. apply hw.
  - apply hw.
  - intros j mj hj. apply touch_lookup in hj as [(-> & -> & _)|[_ hj]]; [done|by eapply ok_tidy].
Qed.
Lemma file_close_sits o w i m f :
  sits w (fo_handle o) i m f -> fo_handle o <> 0%Z ->
  exists m', file_close o w = Ok (true, File [] [] 0 (fo_size o), touch w i m' f) /\ kin false m m' /\ (tidy m -> tidy m').
Proof.
  intros hs hh. unfold file_close. destruct (Z.eqb_spec (fo_handle o) 0); [done|].
  unfold fclose. rewrite (on_sits _ _ _ _ _ _ hs). cbn [rbind fst snd].
  set (m' := Stream _ _ _ _ _ _ _ _). exists m'. rewrite (set_stream_sits _ _ _ _ _ m' hs) by done. done.
Qed.
Lemma writing_tidy m f : writing m f -> tidy m.
Proof. intros (h1 & _ & h3). by split. Qed.
Lemma reading_tidy m : reading m -> tidy m.
Proof. intros (h1 & _ & h3). by split. Qed.

(** Opening for writing or appending, writing things, closing. *)
Lemma written w name a f0 l :
  ok w -> usable w name -> content w name = f0 -> fst (kind_of a) <> MRead -> Forall fit l ->
  exists o w1 w2 o2 w3,
    file_new w name a = Ok (o, w1) /\ put_all o w1 l = Ok w2 /\ file_close o w2 = Ok (true, o2, w3) /\ ok w3 /\
    content w3 name = Some ((match fst (kind_of a) with MWrite => [] | _ => match f0 with Some f => f | None => [] end end) ++ all_bytes l) /\
    others_same name w w3 /\ w_deny w3 = w_deny w.
Proof.
  intros hw hu hc ha hl.
  destruct (file_new_usable w name a f0 hw hu hc) as (h & node & w1 & f & E & hh & hw1 & En & ho & hd & Ef & hs); [done|].
  rewrite <- Ef. set (o := File _ _ _ _) in E.
  assert (hwr : writing (mode_stream node (fst (kind_of a)) (snd (kind_of a))) f).
  { destruct a; cbn in ha, Ef |- *; try done; unfold writing; cbn; (split_and!; [done| |done]); subst f; (first [by left|by right]). }
  destruct (put_all_end o w1 _ _ f l hs hwr hl) as (m' & Ep & hk & hwr').
  assert (hs' := sits_touch _ _ _ _ _ m' (f ++ all_bytes l) hs hk).
  destruct (file_close_sits o _ _ _ _ hs') as (m'' & Ec & hk2 & ht); [done|].
  assert (E1 : sm_node m' = node) by by destruct hk. assert (E2 : sm_node m'' = sm_node m') by by destruct hk2.
  exists o, w1. do 3 eexists. split_and!; [exact E|exact Ep|exact Ec|..].
  - rewrite touch_touch by done. eapply touch_ok; [done|exact hs| |]; [by rewrite E2, E1|]. apply ht. by eapply writing_tidy.
  - rewrite touch_touch by done. eapply touch_content; [done|exact hs|by rewrite E2, E1|done].
  - rewrite touch_touch by done. intros n nn. rewrite <- (ho n nn).
    eapply touch_content; [done|exact hs|by rewrite E2, E1|exact En|exact nn].
  - by rewrite <- hd.
Qed.
Lemma seek_sits o w i m f k :
  sits w (fo_handle o) i m f -> (0 <= k)%Z ->
  exists m', file_seek o w k = Ok (true, touch w i m' f) /\ kin true m m' /\ sm_pos m' = Z.to_nat k /\ sm_eof m' = false /\ sm_last m' = LNone.
Proof.
  intros hs hk. assert (hop := st_o _ _ _ _ _ hs). unfold file_seek, fseek. rewrite (on_sits _ _ _ _ _ _ hs). rewrite c_seek_set by done. cbn [rbind fst snd Z.eqb].
  set (m' := Stream _ _ _ _ _ _ _ _). exists m'. rewrite (set_stream_sits _ _ _ _ _ m' hs) by done. split_and!; try done.
Qed.
