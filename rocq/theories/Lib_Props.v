(** C76: loggers; C77: the scanner of files; C78: powers. *)
From Verif Require Import Base Text_Model Value_Model SysStr_Model SysStr_Proofs File_Model File_Spec File_Proofs File_Proofs2 File_Proofs3 Value_Proofs File_Props Lib_Model Lib_Spec.

(** ** C76: keys *)

Lemma pad_right k len : (0 <= len < 2 ^ 31)%Z -> (Z.of_nat (length k) <= len)%Z ->
  str_pad false k len ($" ") = Ok (k ++ replicate (Z.to_nat len - length k) blank).
Proof.
  intros H1 H2. unfold str_pad. change ($" ") with [blank]. cbv iota. unfold ulong. rewrite Z.mod_small by lia.
  destruct (Z.ltb_spec (2 ^ 63 - 1) len); [lia|]. cbv zeta.
  destruct (Z.ltb_spec (Z.of_nat (length k)) len) as [L|L].
  - assert (forall (c : ascii) n, List.repeat c n = replicate n c) as R by (intros c n; induction n; cbn; congruence).
    rewrite R. repeat f_equal. lia.
  - replace (Z.to_nat len - length k) with 0 by lia. cbn [replicate]. by rewrite app_nil_r.
Qed.
Lemma fit_key_keyed key len : (0 < len < 2 ^ 31)%Z -> (Z.of_nat (length key) < 2 ^ 31)%Z ->
  exists k, fit_key key len = Ok k /\ keyed key (Z.to_nat len) k.
Proof.
  intros H1 H2. unfold fit_key. destruct (Z.eqb_spec len 0); [lia|]. rewrite str_len_short by done.
  destruct (Z.ltb_spec len (Z.of_nat (length key))) as [L|L].
  - rewrite checked32 by lia. cbn [rbind]. rewrite substr3_ok by lia. cbn [rbind].
    set (b := drop (Z.to_nat (Z.of_nat (length key) - len)) key).
    assert (length b = Z.to_nat len) as E by (unfold b; rewrite drop_length; lia).
    rewrite take_ge by lia. rewrite pad_right by lia. rewrite E, Nat.sub_diag. cbn [replicate]. rewrite app_nil_r.
    exists b. split; [done|]. eapply (keyed_cut _ _ (take (Z.to_nat (Z.of_nat (length key) - len)) key)); [|done].
    symmetry. apply take_drop.
  - cbn [rbind]. rewrite pad_right by lia. eexists. split; [done|]. constructor. lia.
Qed.

(** A logger with a key length has a key of exactly that length: the last characters of the key, or the key and blanks. *)
Theorem C76_key_length key len : (0 < len < 2 ^ 31)%Z -> (Z.of_nat (length key) < 2 ^ 31)%Z ->
  exists lg, logger_new key len = Ok lg /\ keyed key (Z.to_nat len) (lg_key lg) /\ Z.of_nat (length (lg_key lg)) = len.
Proof.
  intros H1 H2. destruct (fit_key_keyed key len H1 H2) as (k & E & K). unfold logger_new. rewrite E. cbn [rbind].
  eexists. split; [done|]. cbn [lg_key]. split; [done|]. destruct K; rewrite ?app_length, ?replicate_length; lia.
Qed.
Print Assumptions C76_key_length.
Example C76_key_length_ex : logger_new ($"database") 4 = Ok (Logger ($"base") 4) /\ logger_new ($"db") 4 = Ok (Logger ($"db  ") 4).
Proof. by vm_compute. Qed.
(** Without a length the key is as given. *)
Theorem C76_key_free key : logger_new key 0 = Ok (Logger key 0).
Proof. done. Qed.
Print Assumptions C76_key_free.
(** A negative length is an exception. *)
Theorem C76_negative_length key len : (- 2 ^ 31 <= len < 0)%Z -> (Z.of_nat (length key) - len < 2 ^ 31)%Z ->
  logger_new key len = Throw "out_of_range".
Proof.
  intros H1 H2. unfold logger_new, fit_key. destruct (Z.eqb_spec len 0); [lia|]. rewrite str_len_short by lia.
  destruct (Z.ltb_spec len (Z.of_nat (length key))); [|lia]. rewrite checked32 by lia. cbn [rbind].
  unfold substr3, cpp_substr. unfold ulong at 1. rewrite Z.mod_small by lia.
  destruct (Z.ltb_spec (Z.of_nat (length key)) (Z.of_nat (length key) - len)); [done|lia].
Qed.
Print Assumptions C76_negative_length.
Example C76_negative_length_ex : logger_new ($"db") (-1) = Throw "out_of_range".
Proof. by vm_compute. Qed.

Lemma trim_left_blanks n s : trim_left ($" ") (replicate n blank ++ s) = trim_left ($" ") s.
Proof. induction n; [done|]. cbn [replicate app trim_left]. by replace (mem blank ($" ")) with true by by vm_compute. Qed.
Lemma mem_blank c : c <> blank -> mem c ($" ") = false.
Proof.
  intros H. destruct (mem c ($" ")) eqn:E; [|done]. destruct H.
  pose proof (Text_Proofs.char_forall (fun c => negb (mem c ($" ")) || bool_decide (c = blank)) ltac:(by vm_compute) c) as F.
  cbn beta in F. rewrite E in F. cbn in F. by apply bool_decide_eq_true in F.
Qed.
Lemma trim_right_blanks s n : no_blank_end s -> trim_right ($" ") (s ++ replicate n blank) = s.
Proof.
  intros H. unfold trim_right. rewrite reverse_app, reverse_replicate, trim_left_blanks.
  rewrite <- (reverse_involutive s) at 2. f_equal. destruct (reverse s) as [|c r] eqn:E; [done|].
  cbn [trim_left]. rewrite mem_blank; [done|]. intros ->. apply (H (reverse r)).
  rewrite <- (reverse_involutive s), E. by rewrite reverse_cons.
Qed.
(** A logger made from another one has the key of that one without the blanks at its end, the separator, and its own key, in the
    width of its parent. *)
Theorem C76_child sep parent base n key :
  lg_key parent = base ++ replicate n blank -> no_blank_end base ->
  logger_child sep parent key = logger_new (base ++ sep ++ key) (lg_len parent).
Proof. intros E H. unfold logger_child, logger_new. by rewrite E, trim_right_blanks. Qed.
Print Assumptions C76_child.
Example C76_child_ex : no_blank_end ($"db") /\ logger_child ($"::") (Logger ($"db  ") 4) ($"x") = Ok (Logger ($"b::x") 4) /\
  logger_child ($"::") (Logger ($"db") 0) ($"x") = Ok (Logger ($"db::x") 0).
Proof. split; [|by vm_compute]. intros a E. assert (last ($"db") = last (a ++ [blank])) as H by by rewrite E. by rewrite last_snoc in H. Qed.
(** Without a length the key of a descendant is the whole path. *)
Fixpoint descend (sep : str) (lg : logger) (keys : list str) : res logger :=
  match keys with [] => Ok lg | k :: ks => let! c := logger_child sep lg k in descend sep c ks end.
Theorem C76_path sep key keys : no_blank_end key -> Forall (fun k => k <> [] /\ no_blank_end k) keys ->
  exists lg, logger_new key 0 = Ok lg /\ descend sep lg keys = Ok (Logger (path sep key keys) 0).
Proof.
  intros H F. exists (Logger key 0). split; [done|]. revert key H. induction F as [|k ks [Hn Hk] F IH]; intros key H; [done|].
  cbn [descend path]. rewrite (C76_child sep (Logger key 0) key 0 k); [|cbn; by rewrite app_nil_r|done]. cbn [lg_len]. rewrite C76_key_free.
  cbn [rbind]. apply IH. intros a E. destruct (exists_last Hn) as (k' & c & ->). rewrite !app_assoc in E.
  apply app_inj_tail in E as [_ ->]. by apply (Hk k').
Qed.
Print Assumptions C76_path.
Example C76_path_ex : path ($"::") ($"a") [$"b"; $"c"] = $"a::b::c".
Proof. done. Qed.

(** ** C76: messages *)
Lemma shown_tag lg lv msg : tag lv ++ lg_key lg ++ $"]   " ++ msg = shown (lg, lv, msg).
Proof. by destruct lv. Qed.
Lemma log_all_puts o l w : forall w', put_all o w (map (fun m => IText (shown m)) l) = Ok w' ->
  log_all o w l = Ok (map raises l, w').
Proof.
  revert w. induction l as [|[[lg lv] msg] l IH]; intros w w' H; cbn [map put_all log_all] in *; [by injection H as ->|].
  unfold log_message. rewrite shown_tag. cbn [put] in H.
  destruct (file_write_string o w (shown (lg, lv, msg))) as [[b w1]| | |] eqn:E; cbn [rbind fst snd] in *; try done.
  change (file_write_string _ _ _) with (file_write_string o w (shown (lg, lv, msg))). rewrite E. cbn [rbind fst snd].
  rewrite (IH _ _ H). cbn [rbind fst snd]. by destruct lv.
Qed.
(** The file of a logger contains the messages, of all the loggers that share it, in the order they were logged; exactly the
    fatal ones end with an exception, after they are written. Partial: nothing separates them, see C76_lines_refuted. *)
Theorem C76_messages_partial w name append l :
  reached w -> usable w name -> Forall loggable l ->
  exists o w1 w2 o2 w3, context_new w name append = Ok (o, w1) /\
    log_all o w1 l = Ok (map raises l, w2) /\
    file_close o w2 = Ok (true, o2, w3) /\ content w3 name = Some (concat (map shown l)) /\
    forall n, n <> name -> content w3 n = content w n.
Proof.
  intros hw%reached_ok hu hl. unfold context_new.
  destruct (written w name (if append then WriteUpdate else WriteOnly) (content w name) (map (fun m => IText (shown m)) l) hw hu eq_refl)
    as (o & w1 & w2 & o2 & w3 & E1 & E2 & E3 & _ & hc & ho & _); [by destruct append| |].
  { apply Forall_fmap. eapply Forall_impl; [exact hl|]. intros m H. exact H. }
  exists o, w1, w2, o2, w3. split_and!; try done; [by apply log_all_puts|]. rewrite hc.
  replace (match fst (kind_of _) with MWrite => _ | _ => _ end) with (@nil ascii) by by destruct append.
  f_equal. cbn [app]. unfold all_bytes. clear. induction l as [|m l IH]; [done|]. cbn. by rewrite IH.
Qed.
Print Assumptions C76_messages_partial.
(** The messages are not on lines of their own. *)
Theorem C76_lines_refuted w name lg m1 m2 :
  reached w -> usable w name -> loggable (lg, Info, m1) -> loggable (lg, Info, m2) -> LF ∉ lg_key lg -> LF ∉ m1 -> LF ∉ m2 ->
  exists o w1 w2 o2 w3 f, context_new w name false = Ok (o, w1) /\ log_all o w1 [(lg, Info, m1); (lg, Info, m2)] = Ok ([false; false], w2) /\
    file_close o w2 = Ok (true, o2, w3) /\ content w3 name = Some f /\ LF ∉ f.
Proof.
  intros hw hu h1 h2 k1 k2 k3.
  destruct (C76_messages_partial w name false [(lg, Info, m1); (lg, Info, m2)] hw hu) as (o & w1 & w2 & o2 & w3 & E1 & E2 & E3 & E4 & _);
    [by apply Forall_cons; split; [|apply Forall_cons; split; [|apply Forall_nil]]|].
  exists o, w1, w2, o2, w3. eexists. split_and!; [exact E1|exact E2|exact E3|exact E4|].
  cbn [map concat]. rewrite app_nil_r. unfold shown.
  assert (forall s, forallb (fun c => negb (bool_decide (c = LF))) s = true -> LF ∉ s) as N.
  { intros s F i. rewrite forallb_forall in F. apply elem_of_list_In in i. specialize (F _ i). by rewrite bool_decide_eq_true_2 in F. }
  rewrite !not_elem_of_app. split_and!; first [done|apply N; by vm_compute].
Qed.
Print Assumptions C76_lines_refuted.
(** The logger that is meant to append throws away what the file contained. *)
Theorem C76_append_refuted w name f :
  reached w -> usable w name -> content w name = Some f ->
  exists o w1 o2 w3, context_new w name true = Ok (o, w1) /\ file_close o w1 = Ok (true, o2, w3) /\ content w3 name = Some [].
Proof.
  intros hw hu hc. destruct (C76_messages_partial w name true [] hw hu) as (o & w1 & w2 & o2 & w3 & E1 & E2 & E3 & E4 & _); [done|].
  injection E2 as <-. exists o, w1, o2, w3. done.
Qed.
Print Assumptions C76_append_refuted.

(** The hypotheses can be met. *)
Example C76_ex : reached ex_start /\ usable ex_start $"new" /\ loggable (Logger ($"db") 0, Info, $"started").
Proof.
  split_and!; [apply ex_reached|apply C71_ex_round_trip|]. split; [|by vm_compute].
  intros h. vm_compute in h. repeat (apply elem_of_cons in h as [h|h]; [discriminate h|]). by apply elem_of_nil in h.
Qed.

(** ** C77 *)
(** The text of a scanner is the text of the file, right away and again after a reset, and reading changes no file. *)
Theorem C77_text w name f :
  reached w -> usable w name -> content w name = Some f -> (Z.of_nat (length f) < 2 ^ 31)%Z ->
  exists s w1 s2 w2, scanner_new w name = Ok (s, w1) /\ sc_text s = f /\ scanner_reset s w1 = Ok (s2, w2) /\ sc_text s2 = f /\
    forall n, content w1 n = content w n /\ content w2 n = content w n.
Proof.
  intros hw%reached_ok hu hc hl.
  destruct (file_new_usable w name ReadOnly (Some f) hw hu hc) as (h & node & w1 & f' & E1 & hh & hw1 & En & ho & hd & -> & hs); [done|].
  cbn [fst snd kind_of] in *. set (o := File _ _ _ _) in E1.
  assert (hz : file_size o = Z.of_nat (length f)) by (unfold file_size, o; cbn; apply wrap_id; lia).
  assert (hr : reading (mode_stream node MRead false)) by by split_and!.
  destruct (freads_reading _ _ _ _ _ (Z.of_nat (length f)) hs hr) as (m2 & E2 & hk2 & _); [lia|].
  assert (hs2 := sits_touch _ _ _ _ _ m2 f hs hk2).
  destruct (seek_sits o _ _ _ _ 0 hs2) as (m3 & E3 & hk3 & hp3 & he3 & hl3); [lia|].
  assert (hs3 := sits_touch _ _ _ _ _ m3 f hs2 hk3).
  assert (hr3 : reading m3).
  { destruct hk2 as (_ & e & _), hk3 as (_ & e' & _). split_and!; [by rewrite e', e|done|by rewrite hl3]. }
  destruct (freads_reading _ _ _ _ _ (Z.of_nat (length f)) hs3 hr3) as (m4 & E4 & hk4 & _); [lia|].
  assert (n2 : sm_node m2 = node) by by destruct hk2. assert (n3 : sm_node m3 = sm_node m2) by by destruct hk3.
  assert (n4 : sm_node m4 = sm_node m3) by by destruct hk4.
  assert (W : wanted (Z.of_nat (length f)) f = f).
  { unfold wanted. destruct (Z.eqb_spec (Z.of_nat (length f)) (-1)); [lia|]. rewrite Nat2Z.id. by rewrite take_ge. }
  replace (sm_pos (mode_stream node MRead false)) with 0 in E2 by done. rewrite drop_0, W in E2.
  rewrite hp3 in E4. change (Z.to_nat 0) with 0 in E4. rewrite drop_0, W in E4.
  exists (Scanner o f), (touch w1 (length (w_streams w)) m2 f), (Scanner o f).
  exists (touch (touch (touch w1 (length (w_streams w)) m2 f) (length (w_streams w)) m3 f) (length (w_streams w)) m4 f). split_and!.
  - unfold scanner_new. rewrite E1. cbn [rbind fst snd read_file sc_text sc_file]. rewrite hz. unfold file_read_string, o. cbn [fo_handle].
    rewrite E2. reflexivity.
  - done.
  - unfold scanner_reset, file_rewind. cbn [sc_file]. rewrite E3. cbn [rbind fst snd read_file sc_text sc_file]. rewrite hz.
    unfold file_read_string, o. cbn [fo_handle]. rewrite E4. reflexivity.
  - done.
  - intros n. rewrite !touch_touch by congruence. destruct (decide (n = name)) as [->|nn].
    + rewrite hc. split; (eapply touch_content; [done|exact hs|cbn; congruence|exact En]).
    + rewrite <- (ho n nn). split; (eapply touch_content; [done|exact hs|cbn; congruence|exact En|exact nn]).
Qed.
Print Assumptions C77_text.
Example C77_text_ex : exists s w1, scanner_new ex_start $"notes" = Ok (s, w1) /\ sc_text s = [ "a"; LF; "b"; LF ]%char.
Proof. do 2 eexists. split; [vm_compute; reflexivity|]. vm_compute. reflexivity. Qed.
(** A reset reads the file again: when another text has been put into it, that text is shown, up to the size the file had when the
    scanner was made. *)
Theorem C77_reset_reads_again w name f t :
  reached w -> usable w name -> content w name = Some f -> (Z.of_nat (length f) < 2 ^ 31)%Z ->
  NUL ∉ t -> (Z.of_nat (length t) < 2 ^ 31)%Z ->
  exists s w1 o w2 w3 o2 w4 s2 w5, scanner_new w name = Ok (s, w1) /\
    file_new w1 name WriteOnly = Ok (o, w2) /\ put_all o w2 [IText t] = Ok w3 /\ file_close o w3 = Ok (true, o2, w4) /\
    content w4 name = Some t /\ scanner_reset s w4 = Ok (s2, w5) /\ sc_text s2 = take (length f) t.
Proof.
  intros hw%reached_ok hu hc hl ht1 ht2.
  destruct (file_new_usable w name ReadOnly (Some f) hw hu hc) as (h & node & w1 & f' & E1 & hh & hw1 & En & ho & hd & -> & hs); [done|].
  cbn [fst snd kind_of] in *. set (o := File _ _ _ _) in E1. set (i := length (w_streams w)) in *.
  assert (hz : file_size o = Z.of_nat (length f)) by (unfold file_size, o; cbn; apply wrap_id; lia).
  assert (hr : reading (mode_stream node MRead false)) by by split_and!.
  destruct (freads_reading _ _ _ _ _ (Z.of_nat (length f)) hs hr) as (m2 & E2 & hk2 & _ & _ & hl2); [lia|].
  assert (hs2 := sits_touch _ _ _ _ _ m2 f hs hk2).
  assert (n2 : sm_node m2 = node) by by destruct hk2.
  assert (rd2 : sm_rd m2 = true) by by destruct hk2 as (_ & -> & _).
  assert (okA : ok (touch w1 i m2 f)). { eapply touch_ok; [done|exact hs|done|]. by split. }
  assert (cA : content (touch w1 i m2 f) name = Some f) by (eapply touch_content; [done|exact hs|by rewrite n2|exact En]).
  assert (uA : usable (touch w1 i m2 f) name) by (destruct hu as (u1 & u2 & u3); split_and!; [done|done|cbn; by rewrite hd]).
  assert (nA : w_names (touch w1 i m2 f) !! name = Some node) by done.
  assert (lA : i < length (w_streams (touch w1 i m2 f))) by (eapply lookup_lt_Some; apply hs2).
  assert (W : wanted (Z.of_nat (length f)) f = f).
  { unfold wanted. destruct (Z.eqb_spec (Z.of_nat (length f)) (-1)); [lia|]. rewrite Nat2Z.id. by rewrite take_ge. }
  replace (sm_pos (mode_stream node MRead false)) with 0 in E2 by done. rewrite drop_0, W in E2.
  remember (touch w1 i m2 f) as wA eqn:EA.
  destruct (fopen_usable wA name WriteOnly (Some f) okA uA cA) as (h' & node' & wB & Eo & hh' & okB & nB & _ & _ & sB); [done|].
  cbn [fst snd kind_of] in sB.
  pose proof (file_open_fresh _ _ _ _ _ _ _ _ _ _ Eo hh' sB) as EN.
  set (o' := File _ _ _ _) in EN. set (j := length (w_streams wA)) in *.
  assert (sAB : node' = node /\ sits wB h i m2 []).
  { destruct (fopen_cases wA name (access_mode WriteOnly) okA) as [E|E]; rewrite Eo in E; [by injection E|]. cbn [fst snd] in E.
    destruct E as [nd k u x names nodes hp _ _ hcase Eh Ew]. injection hp as <- <- <-. rewrite (c_str_id name) in hcase by apply hu.
    destruct hcase as [(-> & hi & _ & ->)|(hi & _)]; [|congruence]. rewrite nA in hi. injection hi as <-.
    rewrite Ew in nB. cbn [w_names] in nB. split; [congruence|]. subst wB. destruct hs2 as [q1 q2 q3 q4]. split; cbn [w_handles w_streams w_nodes].
    - rewrite lookup_insert_ne; [done|]. intros <-. rewrite (ok_handle _ okA) in q1.
      destruct (Z.eqb_spec h' 0); [lia|]. destruct (_ && _) eqn:E; [|done]. apply andb_prop in E as [_ E%Z.leb_le]. lia.
    - rewrite lookup_app_l by done. done.
    - done.
    - rewrite n2. apply list_lookup_insert. rewrite <- n2. by eapply lookup_lt_Some. }
  destruct sAB as [-> sAB].
  assert (hwr : writing (mode_stream node MWrite false) []) by (split_and!; [done|by right|done]).
  destruct (put_all_end o' wB _ _ [] [IText t] sB hwr) as (m5 & Ep & hk5 & _); [by repeat constructor|].
  replace ([] ++ all_bytes [IText t]) with t in Ep by (cbn; by rewrite app_nil_r).
  assert (sB5 := sits_touch _ _ _ _ _ m5 t sB hk5).
  destruct (file_close_sits o' _ _ _ _ sB5) as (m6 & Ec & hk6 & _); [done|].
  assert (n5 : sm_node m5 = node) by by destruct hk5. assert (n6 : sm_node m6 = sm_node m5) by by destruct hk6.
  rewrite touch_touch in Ec by done.
  assert (sC : sits (touch wB j m6 t) h i m2 t).
  { destruct sAB as [q1 q2 q3 q4]. split; cbn [touch w_handles w_streams w_nodes]; [done| |done|].
    - rewrite list_lookup_insert_ne by lia. done.
    - rewrite n6, n5, n2. apply list_lookup_insert. rewrite <- n2. by eapply lookup_lt_Some. }
  destruct (seek_sits o _ _ _ _ 0 sC) as (m3 & E3 & hk3 & hp3 & he3 & hl3); [lia|].
  assert (hs3 := sits_touch _ _ _ _ _ m3 t sC hk3).
  assert (hr3 : reading m3). { destruct hk3 as (_ & e' & _). split_and!; [by rewrite e'|done|by rewrite hl3]. }
  destruct (freads_reading _ _ _ _ _ (Z.of_nat (length f)) hs3 hr3) as (m4 & E4 & _); [lia|].
  rewrite hp3 in E4. change (Z.to_nat 0) with 0 in E4. rewrite drop_0 in E4.
  assert (W4 : wanted (Z.of_nat (length f)) t = take (length f) t).
  { unfold wanted. destruct (Z.eqb_spec (Z.of_nat (length f)) (-1)); [lia|]. by rewrite Nat2Z.id. }
  rewrite W4 in E4.
  exists (Scanner o f), wA, o', wB, (touch wB j m5 t). eexists. exists (touch wB j m6 t), (Scanner o (take (length f) t)). eexists. split_and!.
  - unfold scanner_new. rewrite E1. cbn [rbind fst snd read_file sc_text sc_file]. rewrite hz. unfold file_read_string, o. cbn [fo_handle].
    rewrite E2. reflexivity.
  - unfold file_new. rewrite EN. reflexivity.
  - exact Ep.
  - exact Ec.
  - eapply touch_content; [exact okB|exact sB|by rewrite n6, n5|exact nB].
  - unfold scanner_reset, file_rewind. cbn [sc_file]. rewrite E3. cbn [rbind fst snd read_file sc_text sc_file]. rewrite hz.
    unfold file_read_string, o. cbn [fo_handle]. rewrite E4. reflexivity.
  - done.
Qed.
Print Assumptions C77_reset_reads_again.
Example C77_reset_reads_again_ex : usable ex_start $"notes" /\ content ex_start $"notes" = Some [ "a"; LF; "b"; LF ]%char /\
  take 4 ($"other text") = $"othe".
Proof. split_and!; [apply C71_ex_round_trip|apply C71_ex_round_trip|done]. Qed.
(** A scanner for a file that is not there is undefined behaviour. *)
Theorem C77_missing_file_refuted w name :
  reached w -> ~ (usable w (c_str name) /\ content w (c_str name) <> None) -> scanner_new w name = UB.
Proof. intros h1 h2. unfold scanner_new. by rewrite (C71_missing_file_refuted w name h1 h2). Qed.
Print Assumptions C77_missing_file_refuted.
(** A reset does not show what the file contains now when it has become longer since the scanner was made. *)
Theorem C77_grown_file_refuted : exists w, reached w /\ exists s w1 o w2 w3 o2 w4 s2 w5,
  scanner_new w $"notes" = Ok (s, w1) /\ file_new w1 $"notes" Append = Ok (o, w2) /\ put_all o w2 [IText $"c"] = Ok w3 /\
  file_close o w3 = Ok (true, o2, w4) /\ scanner_reset s w4 = Ok (s2, w5) /\
  content w5 $"notes" = Some [ "a"; LF; "b"; LF; "c" ]%char /\ sc_text s2 = [ "a"; LF; "b"; LF ]%char.
Proof. exists ex_start. split; [apply ex_reached|]. repeat (eexists; repeat (split; [vm_compute; reflexivity|])). all: vm_compute; reflexivity. Qed.
Print Assumptions C77_grown_file_refuted.

(** ** C78 *)
Lemma int_op_mul a b : fits (a * b) -> int_op W32 OMul a b = Ok (a * b)%Z.
Proof. apply checked32. Qed.
Lemma int_op_sub a : fits (a - 1) -> int_op W32 OSub a 1 = Ok (a - 1)%Z.
Proof. apply checked32. Qed.
Lemma power_loop_ok n : forall fuel v k, n < fuel -> (0 <= k)%Z -> (1 + Z.of_nat n < 2 ^ 31)%Z ->
  (forall j, (1 <= j <= k + 1 + Z.of_nat n)%Z -> fits (v ^ j)) ->
  power_loop fuel v (v ^ (k + 1)) (1 + Z.of_nat n) = Ok (v ^ (k + 1 + Z.of_nat n))%Z.
Proof.
  induction n as [|n IH]; intros fuel v k Hf Hk Hn Hr; (destruct fuel as [|fuel]; [lia|]); cbn [power_loop].
  - destruct (Z.ltb_spec 1 (1 + Z.of_nat 0)); [lia|]. by replace (k + 1 + Z.of_nat 0)%Z with (k + 1)%Z by lia.
  - destruct (Z.ltb_spec 1 (1 + Z.of_nat (S n))); [|lia].
    assert (v ^ (k + 1) * v = v ^ (k + 1 + 1))%Z as E by (rewrite (Z.pow_add_r v (k + 1) 1) by lia; by rewrite Z.pow_1_r).
    rewrite int_op_mul by (rewrite E; apply Hr; lia). cbn [rbind]. rewrite int_op_sub by (unfold fits; lia). cbn [rbind].
    rewrite E. replace (1 + Z.of_nat (S n) - 1)%Z with (1 + Z.of_nat n)%Z by lia. rewrite IH by (try lia; intros; apply Hr; lia).
    by replace (k + 1 + 1 + Z.of_nat n)%Z with (k + 1 + Z.of_nat (S n))%Z by lia.
Qed.
Lemma pow_fits v n j : fits v -> fits (v ^ n) -> (1 <= j <= n)%Z -> fits (v ^ j).
Proof.
  intros Hv Hn Hj. destruct (Z.eq_dec (Z.abs v) 0%Z) as [E|E].
  { assert (v = 0)%Z as -> by lia. rewrite Z.pow_0_l by lia. done. }
  destruct (Z.eq_dec j n) as [->|Hne]; [done|].
  destruct (Z.eq_dec (Z.abs v) 1%Z) as [E1|E1].
  { assert (Z.abs (v ^ j) = 1)%Z as H by (rewrite Z.abs_pow, E1; apply Z.pow_1_l; lia). unfold fits. lia. }
  assert (2 <= Z.abs v)%Z as H2 by lia.
  assert (Z.abs (v ^ j) * 2 <= Z.abs (v ^ n))%Z as H.
  { replace n with (j + (n - j))%Z by lia. rewrite Z.pow_add_r, Z.abs_mul by lia. apply Z.mul_le_mono_nonneg_l; [lia|].
    rewrite Z.abs_pow. etransitivity; [exact H2|]. rewrite <- (Z.pow_1_r (Z.abs v)) at 1. apply Z.pow_le_mono_r; lia. }
  unfold fits in *. lia.
Qed.
(** The power of an int is the power, whenever it fits into an int. Partial: from the exponent 1 on, see C78_zero_refuted. *)
Theorem C78_power_partial v n fuel :
  fits v -> (1 <= n < 2 ^ 31)%Z -> fits (v ^ n) -> (Z.to_nat n <= fuel)%nat -> power fuel v n = Ok (v ^ n)%Z.
Proof.
  intros Hv Hn Hr Hf. unfold power. pose proof (power_loop_ok (Z.to_nat (n - 1)) fuel v 0%Z) as H.
  replace (1 + Z.of_nat (Z.to_nat (n - 1)))%Z with n in H by lia. replace (0 + 1)%Z with 1%Z in H by done. rewrite Z.pow_1_r in H.
  rewrite H; [|lia..|].
  - by replace (1 + Z.of_nat (Z.to_nat (n - 1)))%Z with n by lia.
  - intros j Hj. apply (pow_fits v n); [done..|lia].
Qed.
Print Assumptions C78_power_partial.
Example C78_power_partial_ex : power 31 (-2) 31 = Ok (- 2 ^ 31)%Z /\ fits ((-2) ^ 31).
Proof. by vm_compute. Qed.
(** power(v) and sqr(v) agree with it. *)
Theorem C78_squares v fuel : fits v -> fits (v * v) -> (2 <= fuel)%nat -> square v = Ok (v * v)%Z /\ sqr fuel v = Ok (v * v)%Z.
Proof.
  intros Hv Hr Hf. split; [by apply int_op_mul|]. unfold sqr. rewrite C78_power_partial; [|done|lia| |lia].
  - by rewrite Z.pow_2_r.
  - by rewrite Z.pow_2_r.
Qed.
Print Assumptions C78_squares.
Example C78_squares_ex : square (-46340) = Ok 2147395600%Z /\ sqr 2 (-46340) = Ok 2147395600%Z.
Proof. by vm_compute. Qed.
(** With the exponent 0, and with negative ones, the answer is the number itself. *)
Theorem C78_zero_refuted v n fuel : (n <= 0)%Z -> (1 <= fuel)%nat -> power fuel v n = Ok v.
Proof. intros Hn Hf. destruct fuel; [lia|]. unfold power. cbn [power_loop]. destruct (Z.ltb_spec 1 n); [lia|done]. Qed.
Print Assumptions C78_zero_refuted.
Example C78_zero_refuted_ex : power 1 7 0 = Ok 7%Z /\ (7 ^ 0 = 1)%Z.
Proof. by vm_compute. Qed.
(** A power that does not fit into an int is undefined behaviour, not an exception. *)
Lemma power_loop_big n : forall fuel v k, n < fuel -> (0 <= k)%Z -> (1 + Z.of_nat n < 2 ^ 31)%Z ->
  fits (v ^ (k + 1)) -> ~ fits (v ^ (k + 1 + Z.of_nat n)) ->
  power_loop fuel v (v ^ (k + 1)) (1 + Z.of_nat n) = UB.
Proof.
  induction n as [|n IH]; intros fuel v k Hf Hk Hn H1 H2; (destruct fuel as [|fuel]; [lia|]); cbn [power_loop].
  - destruct H2. by replace (k + 1 + Z.of_nat 0)%Z with (k + 1)%Z by lia.
  - destruct (Z.ltb_spec 1 (1 + Z.of_nat (S n))); [|lia].
    assert (v ^ (k + 1) * v = v ^ (k + 1 + 1))%Z as E by (rewrite (Z.pow_add_r v (k + 1) 1) by lia; by rewrite Z.pow_1_r).
    assert (fits (v ^ (k + 1 + 1)) \/ ~ fits (v ^ (k + 1 + 1))) as [F|F] by (unfold fits; lia).
    + rewrite int_op_mul by by rewrite E. cbn [rbind]. rewrite int_op_sub by (unfold fits; lia). cbn [rbind].
      rewrite E. replace (1 + Z.of_nat (S n) - 1)%Z with (1 + Z.of_nat n)%Z by lia. apply IH; try lia; [done|].
      by replace (k + 1 + 1 + Z.of_nat n)%Z with (k + 1 + Z.of_nat (S n))%Z by lia.
    + assert (int_op W32 OMul (v ^ (k + 1)) v = UB) as ->; [|done].
      change (checked 32 (v ^ (k + 1) * v) = UB). rewrite E. unfold checked, in_range, fits in *. change (32 - 1)%Z with 31%Z.
      destruct (Z.leb_spec (- 2 ^ 31) (v ^ (k + 1 + 1))); [|done]. destruct (Z.ltb_spec (v ^ (k + 1 + 1)) (2 ^ 31)); [lia|done].
Qed.
Theorem C78_overflow_refuted v n fuel :
  fits v -> (1 <= n < 2 ^ 31)%Z -> ~ fits (v ^ n) -> (Z.to_nat n <= fuel)%nat -> power fuel v n = UB.
Proof.
  intros Hv Hn Hr Hf. unfold power. pose proof (power_loop_big (Z.to_nat (n - 1)) fuel v 0%Z) as H.
  replace (1 + Z.of_nat (Z.to_nat (n - 1)))%Z with n in H by lia. replace (0 + 1)%Z with 1%Z in H by done. rewrite Z.pow_1_r in H.
  apply H; try lia; [done|]. by replace (1 + Z.of_nat (Z.to_nat (n - 1)))%Z with n by lia.
Qed.
Print Assumptions C78_overflow_refuted.
Example C78_overflow_refuted_ex : power 31 2 31 = UB.
Proof. by vm_compute. Qed.
