(** Properties C47 and C48. *)
From Verif Require Import Base Base_Proofs Text_Model Conf_Model Conf_Spec Conf_Proofs.

(** ** C47: every key has the value of the last line that sets it *)
(** A configuration can always be loaded; it succeeds for every existing file that is not empty. *)
Theorem C47_load_total file s : exists s', conf_load file s = Ok s' /\ (c_success s' = true <-> exists data, file = Some data /\ data <> []).
Proof.
  unfold conf_load, conf_unload. cbn [c_lines app]. destruct file as [[|c d]|].
  - exists conf_init. split; [done|]. split; [done|]. by intros (? & [= <-] & ?).
  - destruct (conf_split_ok (conf_lines [] (c :: d)) []) as [m ->]. cbn [rbind]. eexists. split; [done|]. split; eauto.
  - exists conf_init. split; [done|]. split; [done|]. by intros (? & [=] & ?).
Qed.
(** The value of a key is exactly the one of the last line that sets it; a key no line sets has none. *)
Theorem C47_last_line_wins data ls s s' k ty v : has_lines data ls -> conf_load (Some data) s = Ok s' ->
  (get_value s' k (-1) = Some (ty, v) <-> last_setting ls k ty v).
Proof.
  intros Hl. apply conf_lines_iff in Hl as <-. unfold conf_load, conf_unload, get_value, member_name. rewrite Z.eqb_refl. cbn [c_lines app].
  destruct data as [|c d].
  - intros [= <-]. cbn. split; [done|]. intros (b & l & a & E & _). by destruct b.
  - destruct (conf_split [] (conf_lines [] (c :: d))) as [m| | |] eqn:E; cbn [rbind]; try done. intros [= <-]. cbn [c_values]. by apply conf_split_iff.
Qed.
Theorem C47_unset_key data ls s s' k : has_lines data ls -> conf_load (Some data) s = Ok s' ->
  (get_value s' k (-1) = None <-> forall l, l ∈ ls -> forall ty v, ~ sets l k ty v).
Proof.
  intros Hl H. split.
  - intros Hn l Hin ty v Hs. destruct (last_setting_dec ls k) as [(ty' & v' & Hx)|Hno]; [|by apply (Hno l Hin ty v)].
    apply (C47_last_line_wins data ls s s') in Hx; [congruence|done|done].
  - intros Hno. destruct (get_value s' k (-1)) as [[ty v]|] eqn:E; [|done]. apply (C47_last_line_wins data ls s s') in E; [|done|done].
    destruct E as (b & l & a & -> & Hs & _). destruct (Hno l) with (ty := ty) (v := v); [|done]. apply elem_of_app. right. left.
Qed.
(** Every text has lines in this sense, and a setting line has one reading. *)
Theorem C47_reading_unique data : (exists! ls, has_lines data ls) /\
  forall l k ty v k' ty' v', sets l k ty v -> sets l k' ty' v' -> k = k' /\ ty = ty' /\ v = v'.
Proof.
  split.
  - exists (conf_lines [] data). split; [by apply conf_lines_iff|]. intros ls. by intros ?%conf_lines_iff.
  - intros l k ty v k' ty' v' (w & Hw & ->) (w' & Hw' & ->). by pose proof (words_fun _ _ Hw _ Hw') as [= -> -> ->].
Qed.
(** Exchanging two neighbouring lines that do not set the same key changes no value. *)
Theorem C47_order_of_unrelated_lines data data' before l1 l2 after s1 s2 k :
  has_lines data (before ++ l1 :: l2 :: after) -> has_lines data' (before ++ l2 :: l1 :: after) ->
  (forall key ty v ty' v', sets l1 key ty v -> ~ sets l2 key ty' v') ->
  conf_load (Some data) conf_init = Ok s1 -> conf_load (Some data') conf_init = Ok s2 ->
  get_value s1 k (-1) = get_value s2 k (-1).
Proof.
  intros H1 H2 Hd L1 L2.
  assert (forall l1 l2 ty v, (forall key ty v ty' v', sets l1 key ty v -> ~ sets l2 key ty' v') ->
    last_setting (before ++ l1 :: l2 :: after) k ty v -> last_setting (before ++ l2 :: l1 :: after) k ty v) as Hswap.
  { clear. intros l1 l2 ty v Hd (b & l & a & E & Hs & Ha).
    destruct (app_eq_inv before (l1 :: l2 :: after) b (l :: a) E) as [(t & -> & E2)|(t & -> & E2)].
    - destruct t as [|x t].
      + injection E2 as -> ->. rewrite app_nil_r. exists (b ++ [l2]), l1, after. rewrite <- app_assoc. split_and!; [done|done|].
        intros x Hx. apply Ha. by right.
      + injection E2 as -> ->. exists b, x, (t ++ l2 :: l1 :: after). rewrite <- app_assoc. split_and!; [done|done|].
        intros y Hy. apply Ha. revert Hy. rewrite !elem_of_app, !elem_of_cons. tauto.
    - destruct t as [|x t]; [|destruct t as [|y t]].
      + injection E2 as -> <-. exists (before ++ [l2]), l, after. rewrite <- app_assoc. split_and!; [done|done|].
        intros x Hx. apply Ha. by right.
      + injection E2 as -> -> ->. exists before, l, (x :: a). split_and!; [done|done|].
        intros y Hy. apply elem_of_cons in Hy as [->|Hy]; [|by apply Ha]. intros ty' v' Hs'. by eapply (Hd k).
      + injection E2 as -> -> ->. exists (before ++ y :: x :: t), l, a. rewrite <- app_assoc. done. }
  destruct (get_value s1 k (-1)) as [[ty v]|] eqn:E1.
  - symmetry. apply (C47_last_line_wins _ _ _ _ _ _ _ H2 L2). apply (C47_last_line_wins _ _ _ _ _ _ _ H1 L1) in E1. by apply Hswap.
  - destruct (get_value s2 k (-1)) as [[ty v]|] eqn:E2; [|done]. apply (C47_last_line_wins _ _ _ _ _ _ _ H2 L2) in E2.
    apply Hswap in E2; [|intros key ty1 v1 ty2 v2 A B; by eapply (Hd key)].
    apply (C47_last_line_wins _ _ _ _ _ _ _ H1 L1) in E2. congruence.
Qed.
(** Loading forgets everything that was loaded before. *)
Theorem C47_reload_forgets file s1 s2 : conf_load file s1 = conf_load file s2.
Proof. done. Qed.
(** A file written one setting a line gives back exactly what was written. *)
Definition is_word (w : str) : Prop := w <> [] /\ Forall (fun c => c ∉ separators) w.
Lemma is_words k t ws : is_word k -> is_word t -> Forall is_word ws -> Forall is_word (k :: t :: ws).
Proof. intros. constructor; [done|]. by constructor. Qed.
Theorem C47_written_is_read (es : list (str * str * list str)) s s' :
  Forall (fun e => is_word e.1.1 /\ is_word e.1.2 /\ Forall is_word e.2) es ->
  NoDup (map (fun e => e.1.1) es) ->
  conf_load (Some (ended (map (fun e => joined (e.1.1 :: e.1.2 :: e.2)) es))) s = Ok s' ->
  forall k ty v, get_value s' k (-1) = Some (ty, v) <-> exists ws, (k, ty, ws) ∈ es /\ v = joined ws.
Proof.
  intros Hw Hnd H k ty v.
  assert (forall ws, Forall is_word ws -> words (joined ws) ws) as Hj.
  { induction ws as [|w ws IH]; intros Hf; [apply words_none; constructor|]. apply Forall_cons in Hf as [[Hn Hc] Hf]. cbn [joined].
    destruct ws as [|w2 ws].
    - rewrite <- (app_nil_r w) at 1. apply (words_more [] w [] []); [constructor|done|done|done|apply words_none; constructor].
    - apply (words_more [] w ($" " ++ joined (w2 :: ws))); [constructor|done|done|vm_compute; left|].
      specialize (IH Hf). remember (joined (w2 :: ws)) as j eqn:Ej. clear Ej. inversion IH as [|d w' rest ws' Hd Hn' Hw' Hr Hws E1 E2]; subst.
      change ($" " ++ d ++ w2 ++ rest) with (($" " ++ d) ++ w2 ++ rest). apply words_more; try done. constructor; [vm_compute; left|done]. }
  assert (has_lines (ended (map (fun e => joined (e.1.1 :: e.1.2 :: e.2)) es)) (map (fun e => joined (e.1.1 :: e.1.2 :: e.2)) es)) as Hl.
  { exists []. split_and!; [by rewrite app_nil_r|apply not_elem_of_nil|].
    apply Forall_map. eapply Forall_impl; [exact Hw|]. intros [[k0 t0] ws0] (Hk & Ht & Hws). cbn [fst snd] in *. cbn [compose].
    assert (forall ws, Forall is_word ws -> chr 10 ∉ joined ws) as Hn.
    { assert (forall w, is_word w -> chr 10 ∉ w) as Hn1.
      { intros w [_ Hf] Hin. rewrite Forall_forall in Hf. apply Hf in Hin. apply Hin. vm_compute. right; right; right; left. }
      induction ws as [|w ws IH]; intros Hf; [apply not_elem_of_nil|]. apply Forall_cons in Hf as [Hwd Hf]. cbn [joined].
      destruct ws; [by apply Hn1|]. rewrite !not_elem_of_app. split_and!; [by apply Hn1| |by apply IH].
      intros Hx. by apply elem_of_list_singleton in Hx. }
    apply Hn. by apply is_words. }
  rewrite (C47_last_line_wins _ _ _ _ _ _ _ Hl H). split.
  - intros (b & l & a & E & (ws & Hs & ->) & _). exists ws. split; [|done].
    assert (l ∈ map (fun e : str * str * list str => joined (e.1.1 :: e.1.2 :: e.2)) es) as Hin by (rewrite E; apply elem_of_app; right; left).
    apply elem_of_list_fmap in Hin as ([[k0 t0] ws0] & -> & Hin). rewrite Forall_forall in Hw. destruct (Hw _ Hin) as (Hk & Ht & Hws). cbn [fst snd] in *.
    pose proof (words_fun _ _ Hs _ (Hj (k0 :: t0 :: ws0) (is_words _ _ _ Hk Ht Hws))) as [= -> -> ->]. done.
  - intros (ws & Hin & ->). apply elem_of_list_split in Hin as (b & a & ->). unfold last_setting.
    exists (map (fun e : str * str * list str => joined (e.1.1 :: e.1.2 :: e.2)) b), (joined (k :: ty :: ws)), (map (fun e : str * str * list str => joined (e.1.1 :: e.1.2 :: e.2)) a).
    split; [by rewrite map_app|]. split.
    + exists ws. split; [|done]. apply Hj. rewrite Forall_app, Forall_cons in Hw. destruct Hw as (_ & (Hk & Ht & Hws) & _). by apply is_words.
    + intros l Hl' ty' v' (ws' & Hs & _). apply elem_of_list_fmap in Hl' as ([[k0 t0] ws0] & -> & Hin).
      rewrite Forall_app, Forall_cons in Hw. destruct Hw as (_ & _ & Hw). rewrite Forall_forall in Hw. destruct (Hw _ Hin) as (Hk & Ht & Hws). cbn [fst snd] in *.
      pose proof (words_fun _ _ Hs _ (Hj (k0 :: t0 :: ws0) (is_words _ _ _ Hk Ht Hws))) as [= <- _ _].
      rewrite map_app in Hnd. apply NoDup_app in Hnd as (_ & _ & Hnd). cbn [map] in Hnd. apply NoDup_cons in Hnd as [Hnd _]. apply Hnd.
      apply elem_of_list_fmap. by exists (k, t0, ws0).
Qed.
(** Members of lists are keys of the form list:index and list:index.member; membership is having a value. *)
Theorem C47_indexed s key idx parent : (idx <> -1)%Z ->
  get_value s key idx = get_value s (key ++ $":" ++ print_int idx) (-1) /\
  get_member s parent idx key = get_value s (parent ++ $":" ++ print_int idx ++ $"." ++ key) (-1) /\
  (is_member s key idx = true <-> exists v, get_value s key idx = Some v).
Proof.
  intros H. split_and!; [|done|apply is_member_find].
  unfold get_value, member_name. rewrite Z.eqb_refl. apply Z.eqb_neq in H. by rewrite H.
Qed.
(** Not true: a setting in a last line without line feed is lost. *)
Theorem C47_last_line_refuted : exists data s', conf_load (Some data) conf_init = Ok s' /\ sets data ($"k") ($"int") ($"5") /\
  get_value s' ($"k") (-1) = None.
Proof.
  exists ($"k int 5"). eexists. split; [reflexivity|]. split; [|reflexivity]. exists [$"5"]. split; [|done].
  apply words_inv_cons. exists ($" int 5"). split; [reflexivity|]. apply words_inv_cons. exists ($" 5"). split; [reflexivity|].
  apply words_inv_cons. exists []. split; [reflexivity|]. by apply words_inv_nil.
Qed.
Example C47_example : match conf_load (Some ($"a int 1" ++ [chr 10] ++ $"b  string hello;world" ++ [chr 10] ++ $"single" ++ [chr 10] ++ $"a int 2" ++ [chr 10])) conf_init with
  | Ok s => get_value s ($"a") (-1) = Some ($"int", $"2") /\ get_value s ($"b") (-1) = Some ($"string", $"hello world") /\ get_value s ($"single") (-1) = None
  | _ => False end.
Proof. by vm_compute. Qed.

(** ** C48: paths fall apart into parts that give the path back *)
(** With a separator in it, a path is its directory part followed by its file part; the directory part ends with the
    last separator and the file part contains none. *)
Theorem C48_directory_and_file p : has_separator p ->
  extract_pathname p ++ extract_filename p = p /\ ~ has_separator (extract_filename p) /\
  exists d x, extract_pathname p = d ++ [x] /\ (x = chr 92 \/ x = chr 47).
Proof.
  intros H. apply has_separator_iff in H. unfold extract_pathname, extract_filename.
  destruct (split_last is_separator p) as [[[a x] b]|] eqn:E; [|done]. apply split_last_sound in E as (-> & Hx & Hb). split_and!.
  - by rewrite <- app_assoc.
  - intros Hs. apply has_separator_iff in Hs. by apply split_last_none in Hb.
  - exists a, x. split; [done|]. by apply is_separator_iff.
Qed.
(** The parts of directory, separator and file name put together are found again. *)
Theorem C48_joined_path d x f : (x = chr 92 \/ x = chr 47) -> ~ has_separator f ->
  extract_pathname (d ++ x :: f) = d ++ [x] /\ extract_filename (d ++ x :: f) = f.
Proof.
  intros Hx Hf. unfold extract_pathname, extract_filename. rewrite split_last_complete; [done|by apply is_separator_iff|].
  apply split_last_none. destruct (split_last is_separator f) eqn:E; [|done]. destruct Hf. apply has_separator_iff. by rewrite E.
Qed.
(** Not true without a separator: both parts are then the whole path. *)
Theorem C48_no_separator p : ~ has_separator p -> extract_pathname p = p /\ extract_filename p = p.
Proof.
  intros H. unfold extract_pathname, extract_filename. destruct (split_last is_separator p) eqn:E; [|done]. destruct H. apply has_separator_iff. by rewrite E.
Qed.
Theorem C48_no_separator_refuted : exists p, extract_pathname p ++ extract_filename p <> p.
Proof. exists ($"a.os"). by vm_compute. Qed.
(** With an extension that is not empty, the path is the stem, a dot and the extension. *)
Theorem C48_stem_and_extension p : extract_ext p <> [] -> remove_ext p ++ $"." ++ extract_ext p = p /\ chr 46 ∉ extract_ext p.
Proof.
  unfold remove_ext, extract_ext. destruct (split_last is_dot p) as [[[a x] b]|] eqn:E; [|done]. intros Hb0.
  apply split_last_sound in E as (-> & Hx & Hb). apply bool_decide_eq_true in Hx as ->. destruct b as [|y b]; [done|]. split.
  - rewrite app_length. cbn [length].
    replace (length a + S (S (length b)) - S (length b) - 1)%nat with (length a) by lia. by rewrite take_app.
  - intros Hin. rewrite Forall_forall in Hb. apply Hb in Hin. by apply bool_decide_eq_false in Hin.
Qed.
Theorem C48_joined_extension stem e : e <> [] -> chr 46 ∉ e ->
  extract_ext (stem ++ $"." ++ e) = e /\ remove_ext (stem ++ $"." ++ e) = stem.
Proof.
  intros He Hd. assert (split_last is_dot (stem ++ $"." ++ e) = Some (stem, chr 46, e)) as H.
  { apply (split_last_complete is_dot stem (chr 46) e); [done|]. apply Forall_forall. intros c Hc. apply bool_decide_eq_false. by intros ->. }
  unfold remove_ext, extract_ext. rewrite H. split; [done|]. destruct e as [|y e]; [done|].
  rewrite !app_length. change (length ($".")) with 1%nat. cbn [length]. replace (length stem + (1 + S (length e)) - S (length e) - 1)%nat with (length stem) by lia. apply take_app.
Qed.
(** Without an extension the stem is the whole path. *)
Theorem C48_no_extension p : extract_ext p = [] -> remove_ext p = p.
Proof. unfold remove_ext. by intros ->. Qed.
(** Not true: a dot at the end stays in the stem, and a dot in a directory name starts an extension. *)
Theorem C48_trailing_dot_refuted : exists p, chr 46 ∈ p /\ remove_ext p ++ $"." ++ extract_ext p <> p.
Proof. exists ($"a."). split; [vm_compute; right; left|by vm_compute]. Qed.
Theorem C48_directory_dot_refuted : exists p, extract_ext p <> extract_ext (extract_filename p) /\ has_separator (extract_ext p).
Proof. exists ($"a.d/b"). split; [by vm_compute|]. right. vm_compute. right. left. Qed.
(** Different module names have different places in a library folder. *)
Theorem C48_module_paths_differ base m m' : chr 47 ∉ m -> chr 47 ∉ m' -> build_path base m = build_path base m' -> m = m'.
Proof.
  unfold build_path. intros H1 H2 E. apply app_inv_head in E. apply (app_inv_head ($"/")) in E. revert m' H2 E.
  induction m as [|c m IH]; intros [|c' m'] H2 E; try done. cbn [map] in E. injection E as Ec E.
  apply not_elem_of_cons in H1 as [H1 H1'], H2 as [H2 H2']. f_equal; [|by apply IH].
  revert Ec. unfold is_dot. repeat case_bool_decide; intros; subst; try done; congruence.
Qed.
Example C48_example : extract_pathname ($"lib/System/String.os") = $"lib/System/" /\ extract_filename ($"lib/System/String.os") = $"String.os" /\
  remove_ext ($"String.os") = $"String" /\ extract_ext ($"String.os") = $"os" /\ build_path ($"lib") ($"System.String") = $"lib/System/String".
Proof. by vm_compute. Qed.

Print Assumptions C47_load_total.
Print Assumptions C47_last_line_wins.
Print Assumptions C47_unset_key.
Print Assumptions C47_reading_unique.
Print Assumptions C47_order_of_unrelated_lines.
Print Assumptions C47_reload_forgets.
Print Assumptions C47_written_is_read.
Print Assumptions C47_indexed.
Print Assumptions C47_last_line_refuted.
Print Assumptions C48_directory_and_file.
Print Assumptions C48_joined_path.
Print Assumptions C48_no_separator.
Print Assumptions C48_no_separator_refuted.
Print Assumptions C48_stem_and_extension.
Print Assumptions C48_joined_extension.
Print Assumptions C48_no_extension.
Print Assumptions C48_trailing_dot_refuted.
Print Assumptions C48_directory_dot_refuted.
Print Assumptions C48_module_paths_differ.
