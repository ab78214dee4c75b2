(** Proofs about the CSV reader. *)
From Verif Require Import Base Text_Model Value_Model Value_Proofs SysStr_Model SysStr_Spec SysStr_Proofs SysStr_Props Json_Proofs
  File_Model File_Spec File_Proofs File_Proofs2 File_Proofs3 Csv_Model Csv_Spec.

Lemma parse_row_cut l : short l -> exists r, parse_row l = Ok r /\ cut SEPARATOR l r.
Proof. intros h. apply C61_split_cuts; [done|by vm_compute|done|lia]. Qed.

Lemma parse_char fuel c h index line data :
  short c -> (-1 <= index < Z.of_nat (length c))%Z ->
  parse_loop (S fuel) c h index line data =
    let char := take 1 (drop (Z.to_nat (index + 1)) c) in
    if str_eqb char LINEBREAK then
      let! r := parse_row line in if h then Ok (data ++ [r]) else parse_loop fuel c h (index + 1) [] (data ++ [r])
    else parse_loop fuel c h (index + 1) (line ++ char) data.
Proof.
  intros hs hi. cbn [parse_loop]. unfold short in hs. rewrite str_len_short by lia.
  destruct (Z.ltb_spec index (Z.of_nat (length c))); [|lia].
  destruct (Z.ltb_spec (Z.of_nat (length c)) (index + 1)); [lia|]. rewrite substr3_ok by lia. done.
Qed.
Lemma drop_cons {A} n (c : list A) x r : drop n c = x :: r -> n < length c /\ drop (S n) c = r.
Proof.
  intros E. assert (hn : n < length c).
  { destruct (decide (n < length c)); [done|]. rewrite drop_ge in E by lia. done. }
  split; [done|]. replace (S n) with (n + 1) by lia. rewrite <- drop_drop, E. done.
Qed.
Lemma parse_chars fuel c h index line data l r :
  short c -> (-1 <= index)%Z -> drop (Z.to_nat (index + 1)) c = l ++ r -> LF ∉ l ->
  parse_loop (length l + fuel) c h index line data = parse_loop fuel c h (index + Z.of_nat (length l)) (line ++ l) data.
Proof.
  intros hs. revert index line. induction l as [|x l IH]; intros index line hi E hl.
  - cbn. by rewrite Z.add_0_r, app_nil_r.
  - cbn [length Nat.add]. apply drop_cons in E as hd. destruct hd as [hd1 hd2].
    rewrite parse_char by (done || lia). cbv zeta. rewrite E. cbn [take app].
    assert (Ex : str_eqb [x] LINEBREAK = false).
    { unfold str_eqb. apply bool_decide_eq_false_2. intros [= ->]. apply hl. left. }
    rewrite take_0, Ex. rewrite IH; [|lia| |].
    + f_equal; [lia|by rewrite <- app_assoc].
    + replace (Z.to_nat (index + 1 + 1)) with (S (Z.to_nat (index + 1))) by lia. done.
    + intros h0. apply hl. by right.
Qed.
Lemma parse_break fuel c h index line data r :
  short c -> (-1 <= index)%Z -> drop (Z.to_nat (index + 1)) c = LF :: r -> short line ->
  exists row, cut SEPARATOR line row /\
    parse_loop (S fuel) c h index line data =
      (if h then Ok (data ++ [row]) else parse_loop fuel c h (index + 1) [] (data ++ [row])) /\
    drop (Z.to_nat (index + 1 + 1)) c = r.
Proof.
  intros hs hi E hl. apply drop_cons in E as hd. destruct hd as [hd1 hd2].
  destruct (parse_row_cut line hl) as (row & Er & hc). exists row. split; [done|]. split.
  - rewrite parse_char by (done || lia). cbv zeta. rewrite E. cbn [take]. rewrite take_0.
    change (str_eqb [LF] LINEBREAK) with true. cbn match. by rewrite Er.
  - by replace (Z.to_nat (index + 1 + 1)) with (S (Z.to_nat (index + 1))) by lia.
Qed.
Lemma text_of_lines_cons l ls : text_of_lines (l :: ls) = l ++ LF :: text_of_lines ls.
Proof. unfold text_of_lines. cbn. by rewrite <- app_assoc. Qed.
Lemma parse_lines c ls tail : forall fuel h index data,
  short c -> (-1 <= index)%Z -> drop (Z.to_nat (index + 1)) c = text_of_lines ls ++ tail ->
  Forall (fun l => LF ∉ l) ls -> LF ∉ tail -> length (text_of_lines ls ++ tail) + 1 < fuel ->
  exists rows, Forall2 (cut SEPARATOR) ls rows /\
    parse_loop fuel c h index [] data = Ok (data ++ (if h then take 1 rows else rows)).
Proof.
  induction ls as [|l ls IH]; intros fuel h index data hs hi E hl ht hf.
  - exists []. split; [constructor|]. cbn [text_of_lines map concat app] in E, hf.
    change (text_of_lines [] ++ tail) with tail in hf.
    assert (hle : Z.to_nat (index + 1) + length tail <= length c \/ tail = []).
    { destruct tail; [by right|left]. assert (El : length (drop (Z.to_nat (index + 1)) c) = length (a :: tail)) by by rewrite E.
      rewrite drop_length in El. cbn [length] in *. lia. }
    replace fuel with (length tail + (fuel - length tail)) by lia.
    rewrite (parse_chars _ _ _ _ _ _ tail []) by (done || (by rewrite app_nil_r)).
    destruct (fuel - length tail) as [|[|k]] eqn:Ek; [lia|lia|].
    assert (Eh : Ok data = Ok (data ++ (if h then take 1 [] else []))) by (destruct h; by rewrite ?take_nil, app_nil_r).
    refine (eq_trans _ Eh).
    assert (Ed : drop (Z.to_nat (index + Z.of_nat (length tail) + 1)) c = []).
    { replace (Z.to_nat (index + Z.of_nat (length tail) + 1)) with (Z.to_nat (index + 1) + length tail) by lia.
      rewrite <- drop_drop, E. apply drop_all. }
    destruct (decide (index + Z.of_nat (length tail) < Z.of_nat (length c))%Z) as [hlt|hge].
    + rewrite parse_char by (done || lia). cbv zeta. rewrite Ed. cbn [take].
      change (str_eqb [] LINEBREAK) with false. cbn match.
      assert (hend : (Z.of_nat (length c) <= index + Z.of_nat (length tail) + 1)%Z).
      { assert (El : length (drop (Z.to_nat (index + Z.of_nat (length tail) + 1)) c) = 0) by by rewrite Ed. rewrite drop_length in El. lia. }
      cbn [parse_loop]. unfold short in hs. rewrite str_len_short by lia.
      destruct (Z.ltb_spec (index + Z.of_nat (length tail) + 1) (Z.of_nat (length c))); [lia|done].
    + cbn [parse_loop]. unfold short in hs. rewrite str_len_short by lia.
      destruct (Z.ltb_spec (index + Z.of_nat (length tail)) (Z.of_nat (length c))); [lia|done].
  - apply Forall_cons in hl as [hl1 hl]. rewrite text_of_lines_cons, <- app_assoc in E. rewrite text_of_lines_cons, <- app_assoc in hf.
    cbn [app] in E, hf. rewrite app_length in hf. cbn [length] in hf.
    assert (hsl : short l).
    { assert (El : length (drop (Z.to_nat (index + 1)) c) = length (l ++ LF :: text_of_lines ls ++ tail)) by by rewrite E.
      rewrite drop_length, app_length in El. cbn [length] in El. unfold short in *. lia. }
    replace fuel with (length l + S (fuel - length l - 1)) by lia.
    rewrite (parse_chars _ _ _ _ _ _ l _ hs hi E hl1). cbn [app].
    assert (E1 : drop (Z.to_nat (index + Z.of_nat (length l) + 1)) c = LF :: text_of_lines ls ++ tail).
    { replace (Z.to_nat (index + Z.of_nat (length l) + 1)) with (Z.to_nat (index + 1) + length l) by lia.
      by rewrite <- drop_drop, E, drop_app. }
    destruct (parse_break (fuel - length l - 1) c h (index + Z.of_nat (length l)) l data _ hs ltac:(lia) E1 hsl) as (row & hc & Ep & E2).
    rewrite Ep.
    destruct (IH (fuel - length l - 1) h (index + Z.of_nat (length l) + 1)%Z (data ++ [row]) hs ltac:(lia) E2 hl ht ltac:(lia)) as (rows & hrows & Er).
    exists (row :: rows). split; [by constructor|]. destruct h.
    + cbn [take]. by rewrite take_0.
    + rewrite Er, <- app_assoc. done.
Qed.
Lemma parse_string_lines c ls tail h data :
  short c -> c = text_of_lines ls ++ tail -> Forall (fun l => LF ∉ l) ls -> LF ∉ tail ->
  exists rows, Forall2 (cut SEPARATOR) ls rows /\ parse_string c h data = Ok (data ++ (if h then take 1 rows else rows)).
Proof.
  intros hs E hl ht. unfold parse_string. apply (parse_lines c ls tail); try done; rewrite <- E; lia.
Qed.

(** Opening. *)
Lemma csv_open_ok rd w name f h ls tail :
  ok w -> usable w name -> content w name = Some f -> short f ->
  f = text_of_lines ls ++ tail -> Forall (fun l => LF ∉ l) ls -> LF ∉ tail ->
  exists rows w', Forall2 (cut SEPARATOR) ls rows /\
    csv_open rd w name h = Ok (Reader (rd_data rd ++ (if h then take 1 rows else rows)) (if string_to_bool name then name else rd_name rd), w') /\
    ok w' /\ (forall n, content w' n = content w n) /\ w_deny w' = w_deny w.
Proof.
  intros hw hu hc hs Ef hl ht.
  destruct (file_new_usable w name ReadOnly (Some f) hw hu hc) as (hd & node & w1 & f' & E1 & hh & hw1 & En & ho & hdeny & -> & hsits); [done|].
  cbn [fst snd kind_of] in *. unfold short in hs.
  assert (Elen : wrap 32 (Z.of_nat (length f)) = Z.of_nat (length f)) by (apply wrap_id; lia).
  rewrite Elen in E1. set (o := File _ _ _ _) in E1.
  destruct (freads_reading _ _ _ _ _ (Z.of_nat (length f)) hsits) as (m2 & E2 & hk2 & hp2 & he2 & hl2); [by split_and!|lia|].
  cbn [mode_stream sm_pos] in E2. rewrite drop_0 in E2.
  assert (Ew : wanted (Z.of_nat (length f)) f = f).
  { unfold wanted. destruct (Z.eqb_spec (Z.of_nat (length f)) (-1)); [lia|]. by rewrite Nat2Z.id, firstn_all. }
  rewrite Ew in E2. assert (hs2 := sits_touch _ _ _ _ _ m2 f hsits hk2).
  destruct (parse_string_lines f ls tail h (rd_data rd) hs Ef hl ht) as (rows & hrows & Ep).
  destruct (file_close_sits o _ _ _ _ hs2 hh) as (m3 & E3 & hk3 & ht3).
  assert (e2 : sm_node m2 = node) by by destruct hk2. assert (e3 : sm_node m3 = sm_node m2) by by destruct hk3.
  exists rows. eexists. split; [done|]. split_and!.
  - unfold csv_open. rewrite E1. cbn [rbind fst snd].
    assert (Eo : file_is_open o = true) by (unfold file_is_open, o; cbn; by destruct (Z.eqb_spec hd 0)). rewrite Eo. cbn [negb].
    unfold file_read_string, file_size, o. cbn [fo_handle fo_size]. rewrite E2. cbn [rbind fst snd]. rewrite Ep. cbn [rbind].
    fold o. rewrite E3. cbn [rbind]. reflexivity.
  - rewrite touch_touch by done. eapply touch_ok; [done|exact hsits|by rewrite e3, e2|]. apply ht3.
    destruct hk2 as (_ & k1 & k2 & _). split; [by rewrite k1|done].
  - intros n0. rewrite touch_touch by done. destruct (decide (n0 = name)) as [->|nn].
    + rewrite hc. eapply touch_content; [done|exact hsits|by rewrite e3, e2|exact En].
    + rewrite <- (ho n0 nn). eapply touch_content; [done|exact hsits|by rewrite e3, e2|exact En|exact nn].
  - by rewrite <- hdeny.
Qed.
(** The fields of a plain table. *)
Lemma plain_join r : Forall plain r -> LF ∉ join $"," r /\ NUL ∉ join $"," r.
Proof.
  intros h. induction h as [|p r (h1 & h2 & h3) hr [IH1 IH2]]; [split; apply not_elem_of_nil|].
  destruct r as [|q r]; [done|]. change (join $"," (p :: q :: r)) with (p ++ $"," ++ join $"," (q :: r)).
  split; intros hx; apply elem_of_app in hx as [hx|hx]; try done; (apply elem_of_app in hx as [hx|hx]; [|done]);
    apply elem_of_list_singleton in hx; discriminate hx.
Qed.
Lemma cut_plain r r' : Forall plain r -> r <> [] -> short (join $"," r) -> cut SEPARATOR (join $"," r) r' -> r' = r.
Proof.
  intros hp hne hs hc.
  destruct (C61_join (join $"," r) SEPARATOR (S (S (length (join $"," r)))) r) as (_ & _ & hu); [done|by vm_compute|done|lia| |by apply hu].
  apply (C61_split_of_join ","%char); [|done|done|change [","%char] with $","; lia]. eapply Forall_impl; [done|]. by intros p (? & _).
Qed.
Lemma lines_short ls l : l ∈ ls -> length l <= length (text_of_lines ls).
Proof.
  induction ls as [|l0 ls IH]; [intros h; by apply elem_of_nil in h|].
  rewrite text_of_lines_cons, app_length, elem_of_cons. cbn [length]. intros [->|h]; [lia|]. apply IH in h. lia.
Qed.
Lemma cut_table t rows :
  Forall (fun r => r <> [] /\ Forall plain r) t -> short (text_of_table t) ->
  Forall2 (cut SEPARATOR) (map (join $",") t) rows -> rows = t.
Proof.
  unfold text_of_table. intros ht hs. remember (map (join $",") t) as ls eqn:El.
  assert (hall : forall l, l ∈ ls -> short l) by (intros l hl; apply lines_short in hl; unfold short in *; lia).
  clear hs. intros h. revert t ht El hall. induction h as [|l r ls rows hc h IH]; intros t ht El hall.
  - by destruct t.
  - destruct t as [|r0 t]; [done|]. injection El as -> ->. apply Forall_cons in ht as [[h1 h2] ht]. f_equal.
    + apply cut_plain; try done. apply hall. left.
    + apply IH; try done. intros x hx. apply hall. by right.
Qed.
Lemma table_text t :
  Forall (fun r => r <> [] /\ Forall plain r) t -> Forall (fun l => LF ∉ l) (map (join $",") t) /\ NUL ∉ text_of_table t.
Proof.
  intros h. induction h as [|r t [h1 h2] ht [IH1 IH2]]; [split; [constructor|apply not_elem_of_nil]|].
  destruct (plain_join r h2) as [p1 p2]. split; [by constructor|].
  unfold text_of_table in *. cbn [map]. rewrite text_of_lines_cons, elem_of_app, elem_of_cons. intros [hx|[hx|hx]]; [done|discriminate hx|done].
Qed.

(** Rows. *)
Lemma get_idx_from_spec column r : forall i,
  (get_idx_from i r column = (-1)%Z /\ column ∉ r) \/
  exists k, get_idx_from i r column = (i + Z.of_nat k)%Z /\ r !! k = Some column /\ forall j, j < k -> r !! j <> Some column.
Proof.
  induction r as [|c r IH]; intros i; cbn [get_idx_from].
  - left. split; [done|apply not_elem_of_nil].
  - unfold str_eqb. case_bool_decide as E.
    + right. exists 0. rewrite Z.add_0_r. split_and!; [done|by subst|lia].
    + destruct (IH (i + 1)%Z) as [[h1 h2]|(k & h1 & h2 & h3)].
      * left. split; [done|]. rewrite elem_of_cons. intros [->|]; [done|done].
      * right. exists (S k). split_and!; [rewrite h1; lia|done|]. intros [|j] hj; cbn; [congruence|apply h3; lia].
Qed.
Lemma row_text_true r : forall result, string_to_bool result = true ->
  row_text_from result r = match r with [] => result | _ => result ++ $" | " ++ join $" | " r end.
Proof.
  induction r as [|e r IH]; intros result h; cbn [row_text_from]; [done|]. rewrite h.
  assert (h1 : string_to_bool ((result ++ $" | ") ++ e) = true).
  { apply (solid_true _ "|"%char); [|by vm_compute]. rewrite !elem_of_app. left. right. right. left. }
  rewrite IH by done. destruct r as [|e' r]; [by rewrite <- !app_assoc|].
  change (join $" | " (e :: e' :: r)) with (e ++ $" | " ++ join $" | " (e' :: r)). by rewrite <- !app_assoc.
Qed.
