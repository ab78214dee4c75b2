(** Properties of the JSON library. *)
From Verif Require Import Base Text_Model Json_Model Json_Spec Json_Proofs.

(** ** C63 *)
(** Writing an array or object and reading the text gives the document back, whatever its size and depth, with every writer
    whose separators are white space. Left out: numbers, quotes and backslashes in texts, arrays of two or more elements that
    start with false, and documents that are a single value (refuted below). *)
Theorem C63_round_trip_partial w level v : white (w_start w) -> white (w_end w) -> container v -> faithful v ->
  reads (write w level v) v.
Proof.
  intros hs he hc hf. destruct (faithful_ok v hf) as [hr E]. pose proof (read_back w level v hs he hc hr) as h. by rewrite E in h.
Qed.
(** With numbers and escaped texts: numbers come back as strings, escaped texts without their backslashes. *)
Theorem C63_read_back w level v : white (w_start w) -> white (w_end w) -> container v -> readable v ->
  reads (write w level v) (as_read v).
Proof. apply read_back. Qed.
(** Both writers of the library qualify, and a document is read in one way only. *)
Theorem C63_both_writers v : container v -> faithful v -> reads (write plain_writer 0 v) v /\ reads (write styled_writer 0 v) v.
Proof.
  intros hc hf. split; apply C63_round_trip_partial; auto; apply (bool_decide_unpack _); by vm_compute.
Qed.
Theorem C63_one_reading text v v' : reads text v -> reads text v' -> v = v'.
Proof. intros [n h] [m h']. specialize (h (n + m)%nat ltac:(lia)). specialize (h' (n + m)%nat ltac:(lia)). congruence. Qed.
(** toString of a value is the text of the plain writer. *)
Theorem C63_same_text v level : write plain_writer level v = value_text v.
Proof. apply plain_text. Qed.

Definition doc : json :=
  JObj [($"name", JStr ($"x y")); ($"list", JArr [JNull; JBool false; JObj []; JArr []]); ($"name", JBool true)].
Example C63_case : container doc /\ faithful doc /\ reads (write styled_writer 0 doc) doc.
Proof.
  assert (h : container doc /\ faithful doc).
  { split; [done|]. cbn. repeat split; try done; apply (bool_decide_unpack _); by vm_compute. }
  destruct h as [hc hf]. split; [done|]. split; [done|]. by apply C63_both_writers.
Qed.
Example C63_case_read :
  let v := JArr [JNum ($"-12.5e3"); JStr ($"a\b")] in
  readable v /\ as_read v = JArr [JStr ($"-12.5e3"); JStr ($"ab")].
Proof.
  split; [|by vm_compute]. cbn. split; [done|]. repeat split.
  - exists (chr 45), ($"12.5e3"). split; [done|]. split; [done|]. apply (bool_decide_unpack _); by vm_compute.
  - by eexists.
Qed.

Ltac run k := exists k; intros n hn; replace n with (k + (n - k))%nat by lia; generalize (n - k)%nat; intros; vm_compute; reflexivity.
Lemma not_read text v v' : reads text v' -> v <> v' -> ~ reads text v.
Proof. intros h hn h'. by apply hn, (C63_one_reading text). Qed.
(** A number comes back as a string. *)
Theorem C63_number_refuted : exists v, container v /\ readable v /\ ~ reads (write plain_writer 0 v) v.
Proof.
  exists (JArr [JNum ($"1")]). split; [done|]. split.
  - cbn. repeat split; try done. exists (chr 49), []. split; [done|]. split; [done|]. apply (bool_decide_unpack _); by vm_compute.
  - apply (not_read _ _ (JArr [JStr ($"1")])); [run 30%nat | done].
Qed.
(** Texts are written without escaping: a quote can change the structure of the document, a backslash is lost. *)
Theorem C63_quote_refuted : exists s, reads (write plain_writer 0 (JArr [JStr s])) (JArr [JStr ($"x"); JStr ($"y")]).
Proof. exists ($"x" ++ quote ++ $", " ++ quote ++ $"y"). run 30%nat. Qed.
Theorem C63_backslash_refuted : exists s, ~ reads (write plain_writer 0 (JArr [JStr s])) (JArr [JStr s]).
Proof. exists ($"a\b"). apply (not_read _ _ (JArr [JStr ($"ab")])); [run 30%nat | done]. Qed.
(** An array that starts with false is written without the comma behind it. *)
Theorem C63_false_first_refuted :
  reads (write plain_writer 0 (JArr [JBool false; JNull])) (JArr [JStr ($"falsenull")]).
Proof. run 40%nat. Qed.
(** A text alone is a document nobody can read back, whatever the text. *)
Theorem C63_single_value_refuted w level s v : is_Some (unescape s) -> ~ reads (write w level (JStr s)) v.
Proof.
  intros [t hu] [n0 h]. pose proof (Toks_str s t [] [] hu Toks_nil) as ht. apply Toks_tokens in ht as [n1 ht].
  specialize (h (S (n0 + n1)) ltac:(lia)). specialize (ht (S (n0 + n1)) ltac:(lia)). rewrite app_nil_r in ht.
  unfold parse in h. cbn [write scalar_text] in h. rewrite ht in h. by cbn in h.
Qed.
(** A bracket that is never closed is accepted at the end of the text, as is one that was never opened. *)
Theorem C63_unclosed_refuted :
  reads ($"[[]") (JArr [JArr []]) /\ reads ($"[]]") (JArr []).
Proof. split; run 20%nat. Qed.

Print Assumptions C63_round_trip_partial.
Print Assumptions C63_read_back.
Print Assumptions C63_both_writers.
Print Assumptions C63_one_reading.
Print Assumptions C63_same_text.
Print Assumptions C63_number_refuted.
Print Assumptions C63_quote_refuted.
Print Assumptions C63_backslash_refuted.
Print Assumptions C63_false_first_refuted.
Print Assumptions C63_single_value_refuted.
Print Assumptions C63_unclosed_refuted.
