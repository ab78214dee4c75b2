(** C71: files. *)
From Verif Require Import Base Text_Model Value_Model Value_Proofs File_Model File_Spec File_Proofs File_Proofs2 File_Proofs3.

(** Every file that is opened gets a handle that no file had before, for every history of calls. *)
Theorem C71_handles names nodes deny input l w :
  proper names nodes -> runs (start names nodes deny input) l w ->
  NoDup (given l) /\ Forall (fun h => 3 < h)%Z (given l).
Proof.
  intros hp hr. destruct (runs_given _ _ _ (ok_start _ _ deny input hp) hr) as (_ & h2 & h3).
  split; [done|]. apply Forall_forall. intros h hh. apply h3 in hh. cbn in hh. lia.
Qed.
Print Assumptions C71_handles.

(** A handle that no call gave is answered with an exception, whatever the call. *)
Theorem C71_unknown_handle names nodes deny input l w c h :
  proper names nodes -> runs (start names nodes deny input) l w -> handle_of c = Some h ->
  h ∉ given l -> ~ (0 <= h <= 3)%Z -> exists t, perform w c = Throw t.
Proof.
  intros hp hr Eh hg hh. assert (hw0 := ok_start _ _ deny input hp). assert (hw := runs_ok _ _ _ hw0 hr).
  destruct (runs_given _ _ _ hw0 hr) as (h1 & _ & h3). cbn in h1, h3.
  assert (En : w_handles w !! h = None).
  { destruct (w_handles w !! h) eqn:E; [|done]. exfalso. assert (hs : is_Some (w_handles w !! h)) by by eexists.
    apply (ok_range _ _ hw) in hs. apply hg, h3. lia. }
  destruct c; cbn [handle_of] in Eh; try done; injection Eh as ->; cbn [perform];
    unfold fclose, feof, ftell, fseek, fflush, freads, freadi, freadb, fwritei, fwriteb, fwrites, fwrite_bytes, fputc, fgetc, fgets, on_stream;
    rewrite En; by eexists.
Qed.
Print Assumptions C71_unknown_handle.

(** Calls on files that are open are defined, when no file is opened for reading and writing at once and no bool is read.
    Partial: with modes that have a plus, C forbids some orders of calls; [freadb] is C71_read_bool_refuted. *)
Theorem C71_open_is_safe_partial names nodes deny input l w c h :
  proper names nodes -> runs (start names nodes deny input) l w -> Forall (fun p => ~ opens_update p) l ->
  handle_of c = Some h -> (h ∈ given l \/ 1 <= h <= 3)%Z -> h ∉ closed l -> (forall h0, c <> CReadb h0) ->
  perform w c <> UB /\ perform w c <> Fuel.
Proof.
  intros hp hr hu Eh hg hc hb. assert (hw0 := ok_start _ _ deny input hp). assert (hw := runs_ok _ _ _ hw0 hr).
  destruct (runs_given _ _ _ hw0 hr) as (h1 & _ & h3). cbn in h1, h3.
  assert (hh : (1 <= h <= Z.of_nat (length (w_streams w)))%Z) by (destruct hg as [hg|hg]; [apply h3 in hg|]; lia).
  apply (perform_fine w c h hw Eh hh).
  - apply (runs_closed _ _ _ h hw0 hr); try lia; [|done]. cbn. intros hl.
    assert (h = 1 \/ h = 2 \/ h = 3)%Z as [->|[->| ->]] by lia; by eexists.
  - apply (runs_apart _ _ _ hw0 hr hu). intros i m. cbn. destruct i as [|[|[|i]]]; cbn; intros [= <-]; done.
  - done.
Qed.
Print Assumptions C71_open_is_safe_partial.

(** A handle that was closed is not refused: every further use of it is undefined behaviour. *)
Theorem C71_closed_handle_refuted names nodes deny input l w c h :
  proper names nodes -> runs (start names nodes deny input) l w ->
  handle_of c = Some h -> h ∈ closed l -> perform w c = UB.
Proof.
  intros hp hr Eh hc. assert (hw0 := ok_start _ _ deny input hp). assert (hw := runs_ok _ _ _ hw0 hr).
  assert (hh : (1 <= h <= Z.of_nat (length (w_streams w)))%Z).
  { clear Eh. remember (start names nodes deny input) as w0. clear Heqw0 hp.
    revert hw0 hw hc. induction hr as [w|w c0 a w1 l w2 hcc hr IH|w c0 t l w2 hcc hr IH]; intros hw0 hw hc.
    - by apply elem_of_nil in hc.
    - assert (hw1 := perform_ok _ _ _ _ hw0 hcc). rewrite closed_cons, elem_of_app in hc. destruct hc as [hc|hc]; [|by apply IH].
      destruct c0, a; try (by apply elem_of_nil in hc). apply elem_of_list_singleton in hc. subst h0.
      destruct (perform_cases _ _ _ _ hw0 hcc) as [(h0 & Eh & [ht|[_ hn]])|(n & md & E & _)]; [| |done].
      + cbn in Eh. injection Eh as <-. assert (El := touched_length _ _ _ _ ht).
        destruct ht as [i m f m' f' op g1 g2 _ _ _ _ _ _ _]. assert (E := ok_at _ _ _ hw0 g1). apply lookup_lt_Some in g2.
        destruct (runs_given _ _ _ hw1 hr) as (hle & _). lia.
      + exfalso. cbn in Eh. injection Eh as <-. cbn [perform] in hcc. unfold fclose, on_stream in hcc. by rewrite hn in hcc.
    - rewrite closed_cons, elem_of_app in hc. destruct hc as [hc|hc]; [|by apply IH].
      destruct c0; by apply elem_of_nil in hc. }
  assert (hno : ~ open_at w h).
  { rewrite (runs_closed _ _ _ h hw0 hr); try lia; [naive_solver|]. cbn. intros hl.
    assert (h = 1 \/ h = 2 \/ h = 3)%Z as [->|[->| ->]] by lia; by eexists. }
  destruct (ok_find _ _ hw hh) as (m & f & g1 & g2 & g3).
  assert (go : sm_open m = false) by (destruct (sm_open m) eqn:E; [exfalso; apply hno; by exists m|done]).
  destruct c; cbn [handle_of] in Eh; try done; injection Eh as ->; cbn [perform];
    unfold fclose, feof, ftell, fseek, fflush, freads, freadi, freadb, fwritei, fwriteb, fwrites, fwrite_bytes, fputc, fgetc, fgets, on_stream;
    by rewrite g1, ?g1, g2, go.
Qed.
Print Assumptions C71_closed_handle_refuted.

(** A file that is at most opened for reading keeps its text, whatever else the program does. *)
Theorem C71_others_untouched names nodes deny input l w name :
  proper names nodes -> runs (start names nodes deny input) l w -> Forall (fun p => ~ opens_to_write name p) l ->
  content w name = content (start names nodes deny input) name.
Proof.
  intros hp hr hl. apply (runs_content _ _ _ _ (ok_start _ _ deny input hp) hr hl). destruct hp as [hp _].
  intros i m. cbn. destruct i as [|[|[|i]]]; cbn; intros [= <-]; cbn; try done; intros _ E; apply hp in E; lia.
Qed.
Print Assumptions C71_others_untouched.

(** What is written to a file is read back: numbers, truth values and texts in any number and order; then the file ends.
    No other file changes. *)
Theorem C71_round_trip w name l :
  reached w -> usable w name -> Forall fit l ->
  exists o1 w1 w2 o2 w3 o4 w4 w5 w6,
    file_new w name WriteOnly = Ok (o1, w1) /\ put_all o1 w1 l = Ok w2 /\ file_close o1 w2 = Ok (true, o2, w3) /\
    file_new w3 name ReadOnly = Ok (o4, w4) /\ get_all o4 w4 l = Ok (l, w5) /\
    file_read_char o4 w5 = Ok ([], w6) /\ file_is_eof o4 w6 = Ok (true, w6) /\
    forall n, n <> name -> content w6 n = content w n.
Proof.
  intros hw%reached_ok hu hl.
  destruct (written w name WriteOnly (content w name) l hw hu eq_refl) as (o1 & w1 & w2 & o2 & w3 & E1 & E2 & E3 & hw3 & hc & ho & hd);
    [done|done|]. cbn in hc.
  destruct (file_new_usable w3 name ReadOnly (Some (all_bytes l)) hw3) as (h & node & w4 & f & E4 & hh & hw4 & En & ho4 & hd4 & Ef & hs);
    [destruct hu as (? & ? & ?); split_and!; congruence|done|done|]. cbn [fst snd kind_of] in Ef, hs. subst f.
  set (o4 := File _ _ _ _) in E4.
  destruct (get_all_reading o4 w4 _ _ _ l [] [] hs) as (m5 & E5 & hk5 & hr5 & hp5); [by split_and!|done|by rewrite app_nil_r|done|].
  assert (hs5 := sits_touch _ _ _ _ _ m5 (all_bytes l) hs hk5).
  destruct (freads_reading _ _ _ _ _ 1 hs5 hr5) as (m6 & E6 & hk6 & hp6 & he6 & hl6); [lia|].
  cbn [app] in hp5. rewrite hp5, drop_all in E6, he6.
  assert (hs6 := sits_touch _ _ _ _ _ m6 (all_bytes l) hs5 hk6).
  assert (e5 : sm_node m5 = node) by by destruct hk5. assert (e6 : sm_node m6 = sm_node m5) by by destruct hk6.
  exists o1, w1, w2, o2, w3, o4, w4. do 2 eexists. split_and!; [exact E1|exact E2|exact E3|exact E4|exact E5|exact E6| |].
  - unfold file_is_eof, feof. rewrite (on_sits _ _ _ _ _ _ hs6), he6. done.
  - intros n nn. rewrite touch_touch by done. rewrite <- (ho n nn), <- (ho4 n nn).
    eapply touch_content; [done|exact hs|by rewrite e6, e5|exact En|exact nn].
Qed.
Print Assumptions C71_round_trip.

(** What a file opened for appending already held stays in front of what is written. *)
Theorem C71_append w name l :
  reached w -> usable w name -> Forall fit l ->
  exists o1 w1 w2 o2 w3 o1' w1' w2' o2' w3' new,
    file_new w name Append = Ok (o1, w1) /\ put_all o1 w1 l = Ok w2 /\ file_close o1 w2 = Ok (true, o2, w3) /\
    file_new w name WriteOnly = Ok (o1', w1') /\ put_all o1' w1' l = Ok w2' /\ file_close o1' w2' = Ok (true, o2', w3') /\
    content w3' name = Some new /\
    content w3 name = Some ((match content w name with Some f => f | None => [] end) ++ new).
Proof.
  intros hw%reached_ok hu hl.
  destruct (written w name Append (content w name) l hw hu eq_refl) as (o1 & w1 & w2 & o2 & w3 & E1 & E2 & E3 & hw3 & hc & ho & hd);
    [done|done|].
  destruct (written w name WriteOnly (content w name) l hw hu eq_refl) as (p1 & v1 & v2 & p2 & v3 & F1 & F2 & F3 & hv3 & vc & vo & vd);
    [done|done|].
  exists o1, w1, w2, o2, w3, p1, v1, v2, p2, v3, (all_bytes l). done.
Qed.
Print Assumptions C71_append.

(** A text written on its own is the file's text. *)
Theorem C71_text w name s :
  reached w -> usable w name -> NUL ∉ s -> (Z.of_nat (length s) < 2 ^ 31)%Z ->
  exists o1 w1 w2 o2 w3, file_new w name WriteOnly = Ok (o1, w1) /\ put_all o1 w1 [IText s] = Ok w2 /\
    file_close o1 w2 = Ok (true, o2, w3) /\ content w3 name = Some s.
Proof.
  intros hw%reached_ok hu h1 h2.
  destruct (written w name WriteOnly (content w name) [IText s] hw hu eq_refl) as (o1 & w1 & w2 & o2 & w3 & E1 & E2 & E3 & hw3 & hc & _);
    [done|by repeat constructor|]. exists o1, w1, w2, o2, w3. split_and!; try done. rewrite hc. cbn. by rewrite app_nil_r.
Qed.
Print Assumptions C71_text.

(** Opening for reading, the size, going to a place, and reading a number of characters from there (or, with -1, all). *)
Theorem C71_read w name f k n :
  reached w -> usable w name -> content w name = Some f -> (Z.of_nat (length f) < 2 ^ 31)%Z -> (0 <= k)%Z -> (0 <= n)%Z ->
  exists o w1 w2 w3, file_new w name ReadOnly = Ok (o, w1) /\ file_is_open o = true /\ file_size o = Z.of_nat (length f) /\
    file_seek o w1 k = Ok (true, w2) /\
    file_read_string o w2 n = Ok (take (Z.to_nat n) (drop (Z.to_nat k) f), w3) /\
    (exists w3', file_read_string o w2 (-1) = Ok (drop (Z.to_nat k) f, w3')) /\
    file_is_eof o w3 = Ok ((Z.of_nat (length (drop (Z.to_nat k) f)) <? n)%Z, w3) /\
    forall n, content w3 n = content w n.
Proof.
  intros hw%reached_ok hu hc hl hk hn.
  destruct (file_new_usable w name ReadOnly (Some f) hw hu hc) as (h & node & w1 & f' & E1 & hh & hw1 & En & ho & hd & -> & hs); [done|].
  cbn [fst snd kind_of] in *. set (o := File _ _ _ _) in E1.
  destruct (seek_sits o w1 _ _ _ k hs hk) as (m2 & E2 & hk2 & hp2 & he2 & hl2).
  assert (hs2 := sits_touch _ _ _ _ _ m2 f hs hk2). rewrite <- hp2.
  assert (hr2 : reading m2) by (destruct hk2 as (_ & e & _); split_and!; [by rewrite e|done|congruence]).
  destruct (freads_reading _ _ _ _ _ n hs2 hr2) as (m3 & E3 & hk3 & hp3 & he3 & hl3); [lia|].
  destruct (freads_reading _ _ _ _ _ (-1) hs2 hr2) as (m4 & E4 & _); [lia|].
  assert (hs3 := sits_touch _ _ _ _ _ m3 f hs2 hk3).
  assert (e2 : sm_node m2 = node) by by destruct hk2. assert (e3 : sm_node m3 = sm_node m2) by by destruct hk3.
  exists o, w1. do 2 eexists. split_and!; [exact E1| | |exact E2| | | |].
  - unfold file_is_open, o. cbn. by destruct (Z.eqb_spec h 0).
  - unfold file_size, o. cbn. apply wrap_id; lia.
  - unfold file_read_string, o. cbn [fo_handle]. rewrite E3. unfold wanted. destruct (Z.eqb_spec n (-1)); [lia|done].
  - eexists. unfold file_read_string, o. cbn [fo_handle]. rewrite E4. done.
  - unfold file_is_eof, feof. rewrite (on_sits _ _ _ _ _ _ hs3), he3. unfold met_end. destruct (Z.eqb_spec n (-1)); [lia|].
    cbn [orb rbind fst snd]. by destruct (_ <? _)%Z.
  - intros n0. rewrite touch_touch by done. destruct (decide (n0 = name)) as [->|nn].
    + rewrite hc. eapply touch_content; [done|exact hs|by rewrite e3, e2|exact En].
    + rewrite <- (ho n0 nn). eapply touch_content; [done|exact hs|by rewrite e3, e2|exact En|exact nn].
Qed.
Print Assumptions C71_read.

(** Writing at a place of a file that is open for changes: what stood there is replaced, the text before and behind it stays;
    behind the end, the gap is filled with zero bytes. *)
Inductive written_over (k : nat) (s : str) : str -> str -> Prop :=
| over_inside a old b : length a = k -> length old = length s -> written_over k s (a ++ old ++ b) (a ++ s ++ b)
| over_end a old : length a = k -> length old < length s -> written_over k s (a ++ old) (a ++ s)
| over_gap a n : length a + n = k -> 0 < n -> written_over k s a (a ++ replicate n NUL ++ s).
Theorem C71_write_in_place w name f k s f' :
  reached w -> usable w name -> content w name = Some f -> (0 <= k)%Z -> NUL ∉ s -> s <> [] -> written_over (Z.to_nat k) s f f' ->
  exists o w1 w2 w3, file_new w name ReadUpdate = Ok (o, w1) /\ file_seek o w1 k = Ok (true, w2) /\ put o w2 (IText s) = Ok w3 /\
    content w3 name = Some f' /\ forall n, n <> name -> content w3 n = content w n.
Proof.
  intros hw%reached_ok hu hc hk hn hne hov.
  destruct (file_new_usable w name ReadUpdate (Some f) hw hu hc) as (h & node & w1 & f0 & E1 & hh & hw1 & En & ho & hd & -> & hs); [done|].
  cbn [fst snd kind_of] in *. set (o := File _ _ _ _) in E1.
  destruct (seek_sits o w1 _ _ _ k hs hk) as (m2 & E2 & hk2 & hp2 & he2 & hl2).
  assert (hs2 := sits_touch _ _ _ _ _ m2 f hs hk2).
  assert (Es : splice (Z.to_nat k) s f = f').
  { unfold splice. destruct s as [|c s]; [done|]. destruct hov as [a old b ha hb|a old ha hb|a n ha hb].
    - rewrite app_length, ha. replace (Z.to_nat k - (Z.to_nat k + _)) with 0 by lia. cbn [replicate]. rewrite app_nil_r, <- ha, take_app.
      rewrite drop_app_ge by lia. f_equal. f_equal. rewrite Nat.add_comm, Nat.add_sub, <- hb. apply drop_app.
    - rewrite app_length, ha. replace (Z.to_nat k - (Z.to_nat k + _)) with 0 by lia. cbn [replicate]. rewrite app_nil_r, <- ha, take_app.
      rewrite drop_ge by (rewrite app_length; lia). by rewrite app_nil_r.
    - replace (Z.to_nat k - length a) with n by lia. rewrite take_ge by (rewrite app_length, replicate_length; lia).
      rewrite drop_ge by lia. by rewrite app_nil_r, <- app_assoc. }
  assert (Ew : exists m3, c_write s m2 f = Ok (true, m3, f') /\ kin true m2 m3).
  { destruct hk2 as (e1 & e2 & e3 & e4 & e5). unfold c_write. cbn [mode_stream sm_node sm_rd sm_wr sm_app] in e1, e2, e3, e4. rewrite e3, e4, hl2, hp2. cbn [negb]. rewrite Es.
    destruct (sm_eof m2); eexists; (split; [reflexivity|]); cbn; split_and!; cbn; congruence. }
  destruct Ew as (m3 & Ew & hk3).
  assert (e2 : sm_node m2 = node) by by destruct hk2. assert (e3 : sm_node m3 = sm_node m2) by by destruct hk3.
  exists o, w1. do 2 eexists. split_and!; [exact E1|exact E2| | |].
  - cbn [put]. unfold file_write_string, fwrites. rewrite (c_str_id _ hn), (on_sits _ _ _ _ _ _ hs2), Ew. cbn [rbind fst snd]. reflexivity.
  - change (content (touch (touch w1 (length (w_streams w)) m2 f) (length (w_streams w)) m3 f') name = Some f').
    rewrite touch_touch by done. eapply touch_content; [done|exact hs|by rewrite e3, e2|exact En].
  - intros n nn. change (content (touch (touch w1 (length (w_streams w)) m2 f) (length (w_streams w)) m3 f') n = content w n).
    rewrite touch_touch by done. rewrite <- (ho n nn). eapply touch_content; [done|exact hs|by rewrite e3, e2|exact En|exact nn].
Qed.
Example C71_write_in_place_ex :
  written_over 1 ($"xy") ($"abcd") ($"axyd") /\ written_over 3 ($"xy") ($"abcd") ($"abcxy") /\ written_over 5 ($"x") ($"abcd") ($"abcd" ++ [NUL] ++ $"x").
Proof.
  split_and!; [apply (over_inside 1 ($"xy") ($"a") ($"bc") ($"d"))|apply (over_end 3 ($"xy") ($"abc") ($"d"))|apply (over_gap 5 ($"x") ($"abcd") 1)]; cbn; try done; lia.
Qed.
Print Assumptions C71_write_in_place.

(** Exists tells whether there is a file of that name that can be read, and changes no file. *)
Theorem C71_exists w name :
  reached w -> exists b w', file_exists w name = Ok (b, w') /\ (forall n, content w' n = content w n) /\
    (NUL ∉ name -> (b = true <-> usable w name /\ content w name <> None)).
Proof.
  intros hw%reached_ok.
  assert (dec : (usable w (c_str name) /\ content w (c_str name) <> None) \/ ~ (usable w (c_str name) /\ content w (c_str name) <> None)).
  { unfold usable. destruct (w_deny w (c_str name)); [right; by intros [(_ & _ & ?) _]|].
    destruct (decide (c_str name = [])) as [e|e]; [right; by intros [(_ & ? & _) _]|].
    destruct (content w (c_str name)); [left|right; by intros [_ ?]]. split_and!; [apply c_str_no_nul|done..]. }
  destruct dec as [[hu hc]|no].
  - destruct (fopen_usable w (c_str name) ReadOnly (content w (c_str name)) hw hu eq_refl) as (h & node & w1 & Eo & hh & hw1 & En & ho & hd & hs); [done|].
    assert (Ec : fopen w name $"r" = (h, w1)) by (rewrite <- Eo; unfold fopen; by rewrite (c_str_id (c_str name)) by apply c_str_no_nul).
    destruct (content w (c_str name)) as [f|] eqn:Ef; [|done]. cbn [kind_of fst snd] in hs.
    unfold file_exists. rewrite Ec. cbn [fst snd]. destruct (Z.eqb_spec h 0); [done|].
    unfold fclose. rewrite (on_sits _ _ _ _ _ _ hs). cbn [rbind fst snd]. set (m' := Stream _ _ _ _ _ _ _ _).
    rewrite (set_stream_sits _ _ _ _ _ m' hs) by done.
    do 2 eexists. split; [reflexivity|]. split.
    + intros n0. destruct (touch_content w1 _ _ _ _ m' f (c_str name) hw1 hs eq_refl En) as [c1 c2].
      destruct (decide (n0 = c_str name)) as [->|nn]; [by rewrite c1|]. by rewrite (c2 n0 nn), (ho n0 nn).
    + intros hn. rewrite (c_str_id _ hn) in hu, Ef. rewrite Ef. done.
  - assert (E : fopen w name $"r" = (0%Z, w)).
    { destruct (fopen_cases w name $"r" hw) as [E|E]; [done|exfalso].
      destruct E as [node k u x names nodes hp hn hd hcase _ _]. injection hp as <- <- <-. apply no. split.
      - split_and!; [apply c_str_no_nul|done|done].
      - destruct hcase as [(_ & hi & _)|(_ & hk & _)]; [|done]. unfold content. rewrite hi.
        destruct (lookup_lt_is_Some_2 (w_nodes w) node) as [f ->]; [by eapply ok_name|done]. }
    exists false, w. unfold file_exists. rewrite E. split_and!; try done.
    intros hn. split; [done|]. intros [h1 h2]. exfalso. apply no. by rewrite (c_str_id _ hn).
Qed.
Print Assumptions C71_exists.
(** Flushing answers 0 and changes neither a file nor the place of a stream. *)
Theorem C71_flush w h r w' : fflush w h = Ok (r, w') ->
  r = 0%Z /\ (forall name, content w' name = content w name) /\
  forall k, (let! p := ftell w' k in Ok (fst p)) = (let! p := ftell w k in Ok (fst p)).
Proof.
  unfold fflush. intros H. destruct (w_handles w !! h) as [[i|]|] eqn:Eh.
  2: by injection H as <- <-.
  2: unfold on_stream in H; rewrite Eh in H; discriminate.
  unfold on_stream in H. rewrite Eh in H. destruct (w_streams w !! i) as [m|] eqn:Em; [|discriminate].
  destruct (sm_open m) eqn:Eo; [|discriminate]. destruct (w_nodes w !! sm_node m) eqn:En; [|discriminate].
  injection H as <- <-. split; [done|]. split; [done|]. intros k. unfold ftell, on_stream. cbn [set_stream w_handles w_streams w_nodes].
  destruct (w_handles w !! k) as [[j|]|]; [|done|done].
  destruct (decide (j = i)) as [->|N].
  - rewrite list_lookup_insert by (by eapply lookup_lt_Some). rewrite Em. cbn [sm_open sm_node sm_pos]. rewrite Eo, En. done.
  - rewrite list_lookup_insert_ne by done. destruct (w_streams w !! j) as [m'|]; [|done]. destruct (sm_open m'); [|done].
    by destruct (w_nodes w !! sm_node m').
Qed.
Print Assumptions C71_flush.
Example C71_flush_ex : exists w', fflush (start ∅ [] (fun _ => false) []) 2 = Ok (0%Z, w').
Proof. eexists. vm_compute. reflexivity. Qed.

(** A file that is not there, or that may not be read, does not make [open] answer false: it is undefined behaviour. *)
Theorem C71_missing_file_refuted w name :
  reached w -> ~ (usable w (c_str name) /\ content w (c_str name) <> None) -> file_new w name ReadOnly = UB.
Proof.
  intros hw%reached_ok no.
  assert (E : fopen w name $"r" = (0%Z, w)).
  { destruct (fopen_cases w name $"r" hw) as [E|E]; [done|exfalso].
    destruct E as [node k u x names nodes hp hn hd hcase _ _]. injection hp as <- <- <-. apply no. split.
    - split_and!; [apply c_str_no_nul|done|done].
    - destruct hcase as [(_ & hi & _)|(_ & hk & _)]; [|done]. unfold content. rewrite hi.
      destruct (lookup_lt_is_Some_2 (w_nodes w) node) as [f ->]; [by eapply ok_name|done]. }
  unfold file_new, file_open. cbn [no_file fo_handle Z.eqb negb access_mode]. rewrite E. cbn [fst snd]. unfold fseek, on_stream.
  by rewrite (ok_handle _ hw).
Qed.
Print Assumptions C71_missing_file_refuted.

(** [write] of a number answers the wrong way round: false when it was written, true when it was not. *)
Theorem C71_write_result_refuted w name f v :
  reached w -> usable w name -> content w name = Some f ->
  (exists o w1 w2, file_new w name WriteOnly = Ok (o, w1) /\ file_write_int o w1 v = Ok (false, w2) /\
                   content w2 name = Some (int_bytes v)) /\
  (exists o w1 w2, file_new w name ReadOnly = Ok (o, w1) /\ file_write_int o w1 v = Ok (true, w2) /\ content w2 name = Some f).
Proof.
  intros hw%reached_ok hu hc. split.
  - destruct (file_new_usable w name WriteOnly (Some f) hw hu hc) as (h & node & w1 & f' & E1 & hh & hw1 & En & ho & hd & -> & hs); [done|].
    set (o := File _ _ _ _) in E1. assert (hwr : writing (mode_stream node MWrite false) []) by (split_and!; [done|by right|done]).
    destruct (c_write_end (int_bytes v) _ _ hwr) as (m' & Ew & hk & _).
    exists o, w1. eexists. split; [done|]. unfold file_write_int, fwritei, fwrite_bytes, o. cbn [fo_handle].
    rewrite (on_sits _ _ _ _ _ _ hs). cbn [fst snd kind_of]. rewrite Ew. cbn [rbind fst snd Z.eqb]. split; [reflexivity|].
    eapply (touch_content w1 h _ _ _ m' (int_bytes v)); [done|exact hs|by destruct hk|done].
  - destruct (file_new_usable w name ReadOnly (Some f) hw hu hc) as (h & node & w1 & f' & E1 & hh & hw1 & En & ho & hd & -> & hs); [done|].
    set (o := File _ _ _ _) in E1. cbn [fst snd kind_of] in hs.
    exists o, w1. eexists. split; [done|]. unfold file_write_int, fwritei, fwrite_bytes, o. cbn [fo_handle].
    rewrite (on_sits _ _ _ _ _ _ hs). unfold c_write. cbn [mode_stream sm_wr negb]. cbn [rbind fst snd Z.eqb]. split; [reflexivity|].
    eapply (touch_content w1 h _ _ _ (mode_stream node MRead false) f); [done|exact hs|done|done].
Qed.
Print Assumptions C71_write_result_refuted.

(** So do [write] of a bool and [write] of a text; a text that cannot be written is an exception. *)
Theorem C71_write_result_others_refuted w name f b s :
  reached w -> usable w name -> content w name = Some f -> NUL ∉ s ->
  (exists o w1 w2, file_new w name WriteOnly = Ok (o, w1) /\ file_write_bool o w1 b = Ok (false, w2) /\
                   content w2 name = Some [byte (if b then 1 else 0)]) /\
  (exists o w1 w2, file_new w name ReadOnly = Ok (o, w1) /\ file_write_bool o w1 b = Ok (true, w2) /\ content w2 name = Some f) /\
  (exists o w1 w2, file_new w name WriteOnly = Ok (o, w1) /\ file_write_string o w1 s = Ok (false, w2) /\ content w2 name = Some s) /\
  (exists o w1, file_new w name ReadOnly = Ok (o, w1) /\ (s <> [] -> file_write_string o w1 s = Throw "RuntimeException")).
Proof.
  intros hw%reached_ok hu hc hn. split_and!.
  - destruct (file_new_usable w name WriteOnly (Some f) hw hu hc) as (h & node & w1 & f' & E1 & hh & hw1 & En & ho & hd & -> & hs); [done|].
    set (o := File _ _ _ _) in E1. assert (hwr : writing (mode_stream node MWrite false) []) by (split_and!; [done|by right|done]).
    destruct (c_write_end [byte (if b then 1 else 0)] _ _ hwr) as (m' & Ew & hk & _).
    exists o, w1. eexists. split; [done|]. unfold file_write_bool, fwriteb, fwrite_bytes, o. cbn [fo_handle].
    rewrite (on_sits _ _ _ _ _ _ hs). cbn [fst snd kind_of]. rewrite Ew. cbn [rbind fst snd Z.eqb]. split; [reflexivity|].
    eapply (touch_content w1 h _ _ _ m' [byte (if b then 1 else 0)]); [done|exact hs|by destruct hk|done].
  - destruct (file_new_usable w name ReadOnly (Some f) hw hu hc) as (h & node & w1 & f' & E1 & hh & hw1 & En & ho & hd & -> & hs); [done|].
    set (o := File _ _ _ _) in E1. cbn [fst snd kind_of] in hs.
    exists o, w1. eexists. split; [done|]. unfold file_write_bool, fwriteb, fwrite_bytes, o. cbn [fo_handle].
    rewrite (on_sits _ _ _ _ _ _ hs). unfold c_write. cbn [mode_stream sm_wr negb]. cbn [rbind fst snd Z.eqb]. split; [reflexivity|].
    eapply (touch_content w1 h _ _ _ (mode_stream node MRead false) f); [done|exact hs|done|done].
  - destruct (file_new_usable w name WriteOnly (Some f) hw hu hc) as (h & node & w1 & f' & E1 & hh & hw1 & En & ho & hd & -> & hs); [done|].
    set (o := File _ _ _ _) in E1. assert (hwr : writing (mode_stream node MWrite false) []) by (split_and!; [done|by right|done]).
    destruct (c_write_end s _ _ hwr) as (m' & Ew & hk & _).
    exists o, w1. eexists. split; [done|]. unfold file_write_string, fwrites, o. cbn [fo_handle].
    rewrite (c_str_id _ hn), (on_sits _ _ _ _ _ _ hs). cbn [fst snd kind_of]. rewrite Ew. cbn [rbind fst snd Z.eqb]. split; [reflexivity|].
    eapply (touch_content w1 h _ _ _ m' s); [done|exact hs|by destruct hk|done].
  - destruct (file_new_usable w name ReadOnly (Some f) hw hu hc) as (h & node & w1 & f' & E1 & hh & hw1 & En & ho & hd & -> & hs); [done|].
    set (o := File _ _ _ _) in E1. cbn [fst snd kind_of] in hs. exists o, w1. split; [done|]. intros _.
    unfold file_write_string, fwrites, o. cbn [fo_handle]. rewrite (on_sits _ _ _ _ _ _ hs). done.
Qed.
Print Assumptions C71_write_result_others_refuted.

(** An object that has a file open cannot open another one before it is closed, whatever the name and the mode. *)
Theorem C71_open_twice w name f a name' mode :
  reached w -> usable w name -> content w name = Some f ->
  exists o w1, file_new w name a = Ok (o, w1) /\ file_is_open o = true /\ file_open o w1 name' mode = Throw "Exception" /\
    (exists o2 w2, file_close o w1 = Ok (true, o2, w2) /\ file_is_open o2 = false).
Proof.
  intros hw%reached_ok hu hc.
  destruct (file_new_usable w name a (Some f) hw hu hc) as (h & node & w1 & f' & E1 & hh & hw1 & En & ho & hd & hf & hs); [by destruct a|].
  set (o := File _ _ _ _) in E1. exists o, w1.
  assert (hz : (h =? 0)%Z = false) by (apply Z.eqb_neq; exact hh).
  split; [done|]. unfold file_is_open, file_open. cbn [o fo_handle]. rewrite hz. split_and!; [done|done|].
  destruct (file_close_sits o _ _ _ _ hs hh) as (m' & Ec & _ & _). do 2 eexists. split; [exact Ec|done].
Qed.
Print Assumptions C71_open_twice.

(** A file opened with ReadWrite cannot be written. *)
Theorem C71_read_write_refuted w name f s :
  reached w -> usable w name -> content w name = Some f ->
  exists o w1, file_new w name ReadWrite = Ok (o, w1) /\ file_write_string o w1 s = Throw "RuntimeException".
Proof.
  intros hw%reached_ok hu hc.
  destruct (file_new_usable w name ReadWrite (Some f) hw hu hc) as (h & node & w1 & f' & E1 & hh & hw1 & En & ho & hd & -> & hs); [done|].
  set (o := File _ _ _ _) in E1. cbn [fst snd kind_of] in hs. exists o, w1. split; [done|].
  unfold file_write_string, fwrites, o. cbn [fo_handle]. rewrite (on_sits _ _ _ _ _ _ hs). done.
Qed.
Print Assumptions C71_read_write_refuted.

(** [fgets]: up to the end of the line, or to one character less than the given size, or to the end of the file. Partial: for
    sizes up to 1024 only, see C71_long_gets_refuted. *)
Lemma to_line_end_parts s : exists r, s = to_line_end s ++ r /\
  (r = [] \/ exists a, to_line_end s = a ++ [LF]) /\ (forall a b, to_line_end s = a ++ LF :: b -> b = []).
Proof.
  induction s as [|c s IH]; cbn [to_line_end].
  - exists []. split_and!; [done|by left|]. by intros [] b.
  - destruct (ascii_dec c LF) as [->|nc].
    + exists s. split_and!; [done|right; by exists []|]. intros [|x a] b [= E]; [done|]. by destruct a.
    + destruct IH as (r & E & [->|(a & Ea)] & h3).
      * exists []. rewrite app_nil_r in *. split_and!; [congruence|by left|].
        intros [|x a] b [= E1 E2]; [done|by eapply h3].
      * exists r. split_and!; [cbn; congruence|right; exists (c :: a); cbn; congruence|].
        intros [|x a'] b [= E1 E2]; [done|by eapply h3].
Qed.
Theorem C71_gets_partial w name f k n :
  reached w -> usable w name -> content w name = Some f -> NUL ∉ f -> (0 <= k < Z.of_nat (length f))%Z -> (2 <= n <= 1024)%Z ->
  exists o w1 w2 w3 line rest,
    file_new w name ReadOnly = Ok (o, w1) /\ file_seek o w1 k = Ok (true, w2) /\ fgets w2 (fo_handle o) n = Ok (Some line, w3) /\
    ftell w3 (fo_handle o) = Ok (wrap 32 (k + Z.of_nat (length line)), w3) /\
    drop (Z.to_nat k) f = line ++ rest /\ line <> [] /\ (Z.of_nat (length line) <= n - 1)%Z /\
    (forall a b, line = a ++ LF :: b -> b = []) /\
    (rest = [] \/ (exists a, line = a ++ [LF]) \/ Z.of_nat (length line) = (n - 1)%Z).
Proof.
  intros hw%reached_ok hu hc hnul hk hn.
  destruct (file_new_usable w name ReadOnly (Some f) hw hu hc) as (h & node & w1 & f' & E1 & hh & hw1 & En & ho & hd & -> & hs); [done|].
  cbn [fst snd kind_of] in *. set (o := File _ _ _ _) in E1.
  destruct (seek_sits o w1 _ _ _ k hs ltac:(lia)) as (m2 & E2 & hk2 & hp2 & he2 & hl2).
  assert (hs2 := sits_touch _ _ _ _ _ m2 f hs hk2).
  assert (hrd : sm_rd m2 = true) by by destruct hk2 as (_ & -> & _).
  set (rest0 := drop (Z.to_nat k) f). assert (hne : rest0 <> []).
  { intros E. assert (El : length rest0 = 0) by by rewrite E. unfold rest0 in El. rewrite drop_length in El. lia. }
  set (t := take (Z.to_nat n - 1) rest0). destruct (to_line_end_parts t) as (r & Et & h2 & h3).
  set (line := to_line_end t) in *.
  assert (hline : line <> []).
  { unfold line, t. destruct rest0 as [|c rest0]; [done|]. replace (Z.to_nat n - 1) with (S (Z.to_nat n - 2)) by lia. cbn.
    by destruct (ascii_dec c LF). }
  assert (hnl : c_str line = line).
  { apply c_str_id. intros hin. apply hnul. rewrite <- (take_drop (Z.to_nat k) f). apply elem_of_app. right. fold rest0.
    rewrite <- (take_drop (Z.to_nat n - 1) rest0). apply elem_of_app. left. fold t. rewrite Et. apply elem_of_app. by left. }
  assert (hlen : length line <= Z.to_nat n - 1).
  { assert (El : length t = length line + length r) by (rewrite Et at 1; by rewrite app_length).
    unfold t in El. rewrite take_length in El. lia. }
  assert (Eg : exists m3, c_gets (Z.to_nat n) m2 f = Ok (Some line, m3) /\ sm_node m3 = sm_node m2 /\ sm_open m3 = sm_open m2 /\
                          sm_pos m3 = Z.to_nat k + length line).
  { unfold c_gets. destruct (Nat.eqb_spec (Z.to_nat n) 1); [lia|]. rewrite hrd, hl2, he2, hp2. cbn [negb]. fold rest0. fold t. fold line.
    destruct line eqn:Eline; [done|]. eexists. split_and!; [reflexivity|done..]. }
  destruct Eg as (m3 & Eg & en3 & eo3 & ep3).
  assert (hs3 : sits (touch (touch w1 (length (w_streams w)) m2 f) (length (w_streams w)) m3 f) h (length (w_streams w)) m3 f).
  { destruct hs2 as [a1 a2 a3 a4]. split; cbn.
    - done.
    - apply list_lookup_insert. by eapply lookup_lt_Some.
    - congruence.
    - rewrite list_lookup_insert; [done|]. rewrite en3. by eapply lookup_lt_Some. }
  exists o, w1. do 2 eexists. exists line, (r ++ drop (Z.to_nat n - 1) rest0). split_and!; [exact E1|exact E2|..].
  - unfold fgets. cbn [o fo_handle]. rewrite (on_sits _ _ _ _ _ _ hs2). cbn [gets_loop].
    destruct (Z.ltb_spec 0 n); [|lia]. assert (Emin : Z.min (n - 0) READ_SIZE = n) by (unfold READ_SIZE; lia). rewrite Emin, Eg. cbn [rbind fst snd].
    rewrite hnl. destruct (Z.ltb_spec (0 + n) n); [lia|]. cbn [rbind fst snd].
    rewrite (set_stream_sits _ _ _ _ _ _ hs2) by done. reflexivity.
  - unfold ftell. cbn [o fo_handle]. rewrite (on_sits _ _ _ _ _ _ hs3), ep3. do 2 f_equal. f_equal. lia.
  - fold rest0. rewrite app_assoc, <- Et. unfold t. by rewrite take_drop.
  - done.
  - lia.
  - done.
  - destruct h2 as [->|h2]; [|by right; left].
    destruct (decide (length rest0 <= Z.to_nat n - 1)) as [hle|hgt].
    + left. by rewrite drop_ge.
    + right; right. rewrite app_nil_r in Et. rewrite <- Et. unfold t. rewrite take_length. lia.
Qed.
Print Assumptions C71_gets_partial.

(** ** A system to try things on *)
Definition ex_names : gmap str nat := {[ $"notes" := 0; $"two" := 1 ]}.
Definition ex_nodes : list str := [[ "a"; LF; "b"; LF ]%char; [ "002" ]%char].
Definition ex_start : world := start ex_names ex_nodes (fun n => str_eqb n $"secret") $"typed".
Lemma ex_proper : proper ex_names ex_nodes.
Proof.
  split.
  - intros n i. unfold ex_names. rewrite lookup_insert_Some, lookup_singleton_Some. cbn. intros [[_ <-]|[_ [_ <-]]]; lia.
  - intros n n' i. unfold ex_names. rewrite !lookup_insert_Some, !lookup_singleton_Some.
    intros [[<- E1]|[_ [<- E1]]] [[<- E2]|[_ [<- E2]]]; congruence.
Qed.
Lemma ex_reached : reached ex_start.
Proof. do 5 eexists. split; [apply ex_proper|apply runs_nil]. Qed.
(** Longer sizes read several lines and answer only the last one. *)
Theorem C71_long_gets_refuted : exists w, reached w /\ exists o w1 w2,
  file_new w $"notes" ReadOnly = Ok (o, w1) /\ content w $"notes" = Some [ "a"; LF; "b"; LF ]%char /\
  fgets w1 (fo_handle o) 2000 = Ok (Some [ "b"; LF ]%char, w2).
Proof. exists ex_start. split; [apply ex_reached|]. repeat (eexists; repeat (split; [vm_compute; reflexivity|])). all: vm_compute; reflexivity. Qed.
Print Assumptions C71_long_gets_refuted.
(** [fgetc] does not answer the character. *)
Theorem C71_getc_refuted : exists w, reached w /\ exists o w1 w2,
  file_new w $"notes" ReadOnly = Ok (o, w1) /\ fgetc w1 (fo_handle o) = Ok ($"97", w2).
Proof. exists ex_start. split; [apply ex_reached|]. repeat (eexists; repeat (split; [vm_compute; reflexivity|])). all: vm_compute; reflexivity. Qed.
Print Assumptions C71_getc_refuted.
(** Reading a number where only one byte is left answers a number, without any sign that it was not there. *)
Theorem C71_short_number_refuted : exists w, reached w /\ exists o w1 w2,
  content w $"two" = Some [ "002" ]%char /\ file_new w $"two" ReadOnly = Ok (o, w1) /\ file_read_int o w1 = Ok (2%Z, w2).
Proof. exists ex_start. split; [apply ex_reached|]. repeat (eexists; repeat (split; [vm_compute; reflexivity|])). all: vm_compute; reflexivity. Qed.
Print Assumptions C71_short_number_refuted.
(** Reading a bool from a byte that is neither 0 nor 1 is undefined behaviour. *)
Theorem C71_read_bool_refuted : exists w, reached w /\ exists o w1,
  file_new w $"two" ReadOnly = Ok (o, w1) /\ file_read_bool o w1 = UB.
Proof. exists ex_start. split; [apply ex_reached|]. repeat (eexists; repeat (split; [vm_compute; reflexivity|])). all: vm_compute; reflexivity. Qed.
Print Assumptions C71_read_bool_refuted.
(** A text with a zero byte is not written whole. *)
Theorem C71_zero_byte_refuted : exists w, reached w /\ exists o w1 w2,
  file_new w $"new" WriteOnly = Ok (o, w1) /\ put_all o w1 [IText [ "x"; NUL; "y" ]%char] = Ok w2 /\ content w2 $"new" = Some $"x".
Proof. exists ex_start. split; [apply ex_reached|]. repeat (eexists; repeat (split; [vm_compute; reflexivity|])). all: vm_compute; reflexivity. Qed.
Print Assumptions C71_zero_byte_refuted.
(** The size a file object answers is the one from when it was opened. *)
Theorem C71_stale_size_refuted : exists w, reached w /\ exists o w1 w2,
  file_new w $"new" WriteOnly = Ok (o, w1) /\ put_all o w1 [IText $"hello"] = Ok w2 /\ content w2 $"new" = Some $"hello" /\
  file_size o = 0%Z.
Proof. exists ex_start. split; [apply ex_reached|]. repeat (eexists; repeat (split; [vm_compute; reflexivity|])). all: vm_compute; reflexivity. Qed.
Print Assumptions C71_stale_size_refuted.

(** The hypotheses can be met. *)
Definition ex_calls : list (call * answer) :=
  [(COpen $"notes" $"r", ANum 4); (COpen $"new" $"w", ANum 5); (COpen $"missing" $"r", ANum 0);
   (CReads 4 1, AText $"a"); (CWrites 5 $"hello", ANum 1); (CWrites 4 $"no", AFailed); (CClose 5, ANum 0); (CEof 99, AFailed)].
Example C71_ex_history : exists w, runs ex_start ex_calls w.
Proof.
  eexists. unfold ex_calls.
  do 5 (eapply runs_call; [vm_compute; reflexivity|]). eapply runs_exn; [vm_compute; reflexivity|].
  eapply runs_call; [vm_compute; reflexivity|]. eapply runs_exn; [vm_compute; reflexivity|]. apply runs_nil.
Qed.
Example C71_ex_handles : given ex_calls = [4%Z; 5%Z] /\ closed ex_calls = [5%Z].
Proof. by vm_compute. Qed.
Example C71_ex_no_update : Forall (fun p => ~ opens_update p) ex_calls.
Proof.
  unfold ex_calls. repeat constructor; intros (n & m & a & [= ] & h); subst;
    repeat (apply elem_of_cons in h as [h|h]; [discriminate h|]); by apply elem_of_nil in h.
Qed.
Example C71_ex_notes_untouched : Forall (fun p => ~ opens_to_write $"notes" p) ex_calls.
Proof.
  unfold ex_calls. repeat constructor; intros (n & m & a & [= ] & E & h); subst; try (vm_compute in E; discriminate E).
  destruct h as [h|h]; [by destruct h|]. repeat (apply elem_of_cons in h as [h|h]; [discriminate h|]); by apply elem_of_nil in h.
Qed.
Example C71_ex_round_trip : usable ex_start $"new" /\ Forall fit [IInt (-5); IText $"hello"; IBool true; IText []; IInt 2147483647] /\
  usable ex_start $"notes" /\ content ex_start $"notes" = Some [ "a"; LF; "b"; LF ]%char.
Proof.
  unfold usable. split_and!; try done.
  - intros h. repeat (apply elem_of_cons in h as [h|h]; [discriminate h|]); by apply elem_of_nil in h.
  - repeat constructor; try done; intros h; repeat (apply elem_of_cons in h as [h|h]; [discriminate h|]); by apply elem_of_nil in h.
  - intros h. repeat (apply elem_of_cons in h as [h|h]; [discriminate h|]); by apply elem_of_nil in h.
Qed.
Example C71_open_twice_ex : exists o w1,
  file_new ex_start $"notes" ReadOnly = Ok (o, w1) /\ file_open o w1 $"new" $"w" = Throw "Exception".
Proof. do 2 eexists. split; [vm_compute; reflexivity|]. vm_compute. reflexivity. Qed.
Example C71_write_result_others_ex : exists o w1 w2,
  file_new ex_start $"notes" WriteOnly = Ok (o, w1) /\ file_write_string o w1 $"hi" = Ok (false, w2) /\ content w2 $"notes" = Some $"hi".
Proof. do 3 eexists. split; [vm_compute; reflexivity|]. split; [vm_compute; reflexivity|]. vm_compute. reflexivity. Qed.
