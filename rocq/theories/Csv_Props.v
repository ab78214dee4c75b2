(** C72: the CSV reader. *)
From Verif Require Import Base Text_Model Value_Model Value_Spec Value_Proofs3 SysStr_Model SysStr_Spec File_Model File_Spec File_Proofs File_Proofs2
  File_Proofs3 File_Props Csv_Model Csv_Spec Csv_Proofs.

(** A table of plain fields, written to a file as CSV, is read back: row by row, field by field; the file stays as it is. *)
Theorem C72_round_trip w name t :
  reached w -> usable w name -> ~ falsy name -> Forall (fun r => r <> [] /\ Forall plain r) t -> short (text_of_table t) ->
  exists o1 w1 w2 o2 w3 rd w4,
    file_new w name WriteOnly = Ok (o1, w1) /\ put_all o1 w1 [IText (text_of_table t)] = Ok w2 /\
    file_close o1 w2 = Ok (true, o2, w3) /\ csv_new w3 name false = Ok (rd, w4) /\
    csv_size rd = Z.of_nat (length t) /\
    (forall i r, t !! i = Some r -> csv_at rd (Z.of_nat i) = Ok r) /\
    (forall i, (i < 0 \/ Z.of_nat (length t) <= i)%Z -> csv_at rd i = Throw "OutOfBoundsException") /\
    content w4 name = Some (text_of_table t).
Proof.
  intros hw%reached_ok hu hf ht hs. destruct (table_text t ht) as [h1 h2].
  destruct (written w name WriteOnly (content w name) [IText (text_of_table t)] hw hu eq_refl) as (o1 & w1 & w2 & o2 & w3 & E1 & E2 & E3 & hw3 & hc & ho & hd).
  { done. }
  { repeat constructor; [done|]. unfold short in hs. lia. }
  cbn in hc. rewrite app_nil_r in hc.
  assert (hu3 : usable w3 name) by (destruct hu as (? & ? & ?); split_and!; congruence).
  destruct (csv_open_ok (Reader [] []) w3 name (text_of_table t) false (map (join $",") t) [] hw3 hu3 hc hs) as (rows & w4 & hr & Eo & _ & hc4 & _);
    [by rewrite app_nil_r|done|apply not_elem_of_nil|].
  apply cut_table in hr; [|done|done]. subst rows. cbn [rd_data app] in Eo.
  exists o1, w1, w2, o2, w3. do 2 eexists. split_and!; [exact E1|exact E2|exact E3| | | | |].
  - unfold csv_new. apply string_to_bool_nonfalsy in hf. rewrite hf in *. exact Eo.
  - done.
  - intros i r hi. unfold csv_at, csv_size. cbn [rd_data]. assert (hl : (Z.of_nat i < Z.of_nat (@length row t))%Z) by (apply Nat2Z.inj_lt; exact (lookup_lt_Some _ _ _ hi)).
    destruct (Z.ltb_spec (Z.of_nat i) 0); [lia|]. destruct (Z.leb_spec (Z.of_nat (@length row t)) (Z.of_nat i)); [lia|]. cbn [orb].
    rewrite Nat2Z.id. change (@lookup nat row (list row) _ i t = Some r) in hi. by rewrite hi.
  - intros i hi. change (i < 0 \/ Z.of_nat (@length row t) <= i)%Z in hi. unfold csv_at, csv_size. cbn [rd_data].
    destruct (Z.ltb_spec i 0); [done|]. destruct (Z.leb_spec (Z.of_nat (@length row t)) i); [done|lia].
  - by rewrite hc4.
Qed.
Print Assumptions C72_round_trip.

(** What a file is read as: the columns of every line that ends with a line break, added to the rows that were there; opening
    changes no file. Partial: characters after the last line break are left out, see C72_last_line_refuted. *)
Theorem C72_open_partial rd w name ls tail :
  reached w -> usable w name -> content w name = Some (text_of_lines ls ++ tail) -> short (text_of_lines ls ++ tail) ->
  Forall (fun l => LF ∉ l) ls -> LF ∉ tail ->
  exists rows w', Forall2 (cut $",") ls rows /\ csv_open rd w name false = Ok (Reader (rd_data rd ++ rows) (if string_to_bool name then name else rd_name rd), w') /\
    (forall n, content w' n = content w n).
Proof.
  intros hw%reached_ok hu hc hs hl ht.
  destruct (csv_open_ok rd w name _ false ls tail hw hu hc hs eq_refl hl ht) as (rows & w' & hr & E & _ & hc' & _).
  exists rows, w'. done.
Qed.
Print Assumptions C72_open_partial.
(** A last line without a line break is lost. *)
Theorem C72_last_line_refuted : exists w, reached w /\ content w $"t" = Some ($"a,b" ++ [LF] ++ $"c,d") /\
  exists rd w', csv_new w $"t" false = Ok (rd, w') /\ rd_data rd = [[ $"a"; $"b" ]].
Proof.
  exists (start {[ $"t" := 0 ]} [ $"a,b" ++ [LF] ++ $"c,d" ] (fun _ => false) []). split; [|split; [by vm_compute|]; do 2 eexists; split; [vm_compute; reflexivity|by vm_compute]].
  do 5 eexists. split; [|apply runs_nil]. split.
  - intros n i. rewrite lookup_singleton_Some. intros [_ <-]. cbn. lia.
  - intros n n' i. rewrite !lookup_singleton_Some. naive_solver.
Qed.
Print Assumptions C72_last_line_refuted.
(** A reader made with column titles keeps only the titles: every other row is missing. *)
Theorem C72_titles_refuted w name l ls tail :
  reached w -> usable w name -> ~ falsy name -> content w name = Some (text_of_lines (l :: ls) ++ tail) -> short (text_of_lines (l :: ls) ++ tail) ->
  Forall (fun l => LF ∉ l) (l :: ls) -> LF ∉ tail ->
  exists rd w' r, csv_new w name true = Ok (rd, w') /\ rd_data rd = [r] /\ cut $"," l r /\ csv_header rd = Ok r.
Proof.
  intros hw%reached_ok hu hf hc hs hl ht.
  destruct (csv_open_ok (Reader [] []) w name _ true (l :: ls) tail hw hu hc hs eq_refl hl ht) as (rows & w' & hr & E & _ & hc' & _).
  inversion hr as [|? r ? rows' h1 h2]; subst. apply string_to_bool_nonfalsy in hf.
  do 2 eexists. exists r. split_and!; [unfold csv_new; rewrite hf in *; exact E|done|done|done].
Qed.
Print Assumptions C72_titles_refuted.
(** Files can be read one after the other with one reader; the rows of each follow those of the ones before. *)
Fixpoint csv_open_all (rd : reader) (w : world) (names : list str) : res (reader * world) :=
  match names with [] => Ok (rd, w) | n :: names' => let! p := csv_open rd w n false in csv_open_all (fst p) (snd p) names' end.
Theorem C72_several rd w (files : list (str * list str)) :
  reached w ->
  Forall (fun p => usable w (fst p) /\ content w (fst p) = Some (text_of_lines (snd p)) /\ short (text_of_lines (snd p)) /\
                   Forall (fun l => LF ∉ l) (snd p)) files ->
  exists rows rd' w', Forall2 (cut $",") (concat (map snd files)) rows /\
    csv_open_all rd w (map fst files) = Ok (rd', w') /\ rd_data rd' = rd_data rd ++ rows.
Proof.
  intros hw%reached_ok. revert rd w hw. induction files as [|[n ls] files IH]; intros rd w hw hf.
  - exists [], rd, w. cbn. split_and!; [constructor|done|by rewrite app_nil_r].
  - apply Forall_cons in hf as [(hu & hc & hs & hl) hf]. cbn [fst snd] in *.
    destruct (csv_open_ok rd w n (text_of_lines ls) false ls [] hw hu hc hs) as (r1 & w1 & hr1 & E1 & hw1 & hc1 & hd1);
      [by rewrite app_nil_r|done|apply not_elem_of_nil|].
    set (rd1 := Reader _ _) in E1.
    destruct (IH rd1 w1 hw1) as (r2 & rd2 & w2 & hr2 & E2 & Ed).
    { eapply Forall_impl; [exact hf|]. intros p ((? & ? & ?) & ? & ? & ?). unfold usable. rewrite hc1, hd1. by split_and!. }
    exists (r1 ++ r2), rd2, w2. cbn [map concat csv_open_all]. split_and!.
    + by apply Forall2_app.
    + cbn [fst]. rewrite E1. cbn [rbind fst snd]. done.
    + rewrite Ed. cbn. by rewrite <- app_assoc.
Qed.
Print Assumptions C72_several.
(** A file named [false] is not opened by the constructor, although it is there. *)
Theorem C72_file_name_refuted w name : reached w -> falsy name -> csv_new w name false = Ok (Reader [] [], w).
Proof. intros _ h. unfold csv_new. apply string_to_bool_false in h. by rewrite h. Qed.
Print Assumptions C72_file_name_refuted.
(** A file that is missing is not reported: undefined behaviour. *)
Theorem C72_missing_file_refuted rd w name h :
  reached w -> ~ (usable w (c_str name) /\ content w (c_str name) <> None) -> csv_open rd w name h = UB.
Proof. intros hw hn. unfold csv_open. by rewrite (C71_missing_file_refuted w name hw hn). Qed.
Print Assumptions C72_missing_file_refuted.
(** The place of a column: the first one that has the name, -1 if there is none. *)
Theorem C72_get_idx r column :
  (get_idx r column = (-1)%Z /\ column ∉ r) \/
  exists k, get_idx r column = Z.of_nat k /\ r !! k = Some column /\ forall j, j < k -> r !! j <> Some column.
Proof. destruct (get_idx_from_spec column r 0) as [h|(k & h)]; [by left|right; by exists k]. Qed.
Print Assumptions C72_get_idx.
(** The text of a row: its fields with bars between them. Partial: the first field must count as true. *)
Theorem C72_row_text_partial e r : ~ falsy e -> row_text (e :: r) = join $" | " (e :: r).
Proof.
  intros h. apply string_to_bool_nonfalsy in h. unfold row_text. cbn [row_text_from].
  change (string_to_bool []) with false. cbn match. change ([] ++ e) with e. rewrite row_text_true by done. by destruct r.
Qed.
Print Assumptions C72_row_text_partial.
Theorem C72_row_text_refuted : row_text [[]; $"x"] = $"x" /\ row_text [ $"false"; $"x"] = $"falsex".
Proof. by vm_compute. Qed.
Print Assumptions C72_row_text_refuted.

(** The hypotheses can be met. *)
Definition ex_table : list (list str) := [[ $"name"; $"age" ]; [ $"ann"; $"7" ]; [ []; [] ]].
Example C72_ex_table : Forall (fun r => r <> [] /\ Forall plain r) ex_table /\ short (text_of_table ex_table) /\
  usable ex_start $"t" /\ ~ falsy $"t" /\ text_of_table ex_table = $"name,age" ++ [LF] ++ $"ann,7" ++ [LF] ++ $"," ++ [LF].
Proof.
  split_and!; try (by vm_compute).
  - unfold ex_table, plain. repeat constructor; try done; intros h; repeat (apply elem_of_cons in h as [h|h]; [discriminate h|]); by apply elem_of_nil in h.
  - unfold usable. split_and!; try done. intros h; repeat (apply elem_of_cons in h as [h|h]; [discriminate h|]); by apply elem_of_nil in h.
  - apply string_to_bool_nonfalsy. by vm_compute.
Qed.
Example C72_ex_read : exists w rd w', reached w /\ csv_new w $"t" false = Ok (rd, w') /\ rd_data rd = ex_table /\
  get_idx [ $"name"; $"age" ] $"age" = 1%Z /\ row_text [ $"name"; $"age" ] = $"name | age".
Proof.
  exists (start {[ $"t" := 0 ]} [ text_of_table ex_table ] (fun _ => false) []). do 2 eexists. split.
  - do 5 eexists. split; [|apply runs_nil]. split.
    + intros n i. rewrite lookup_singleton_Some. intros [_ <-]. cbn. lia.
    + intros n n' i. rewrite !lookup_singleton_Some. naive_solver.
  - split; [vm_compute; reflexivity|]. by vm_compute.
Qed.
