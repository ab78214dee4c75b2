From Verif Require Import Base Text_Model Text_Proofs Json_Model Json_Spec.

Section Ind.
  Context (P : json -> Prop) (H0 : P JNull) (H1 : forall b, P (JBool b)) (H2 : forall t, P (JNum t)) (H3 : forall s, P (JStr s)).
  Context (H4 : forall l, Forall P l -> P (JArr l)) (H5 : forall l, Forall (fun p => P (snd p)) l -> P (JObj l)).
  Fixpoint json_ind' (v : json) : P v.
  Proof.
    destruct v as [|b|t|s|l|l]; [apply H0 | apply H1 | apply H2 | apply H3 | apply H4 | apply H5].
    - induction l as [|x l IH]; constructor; [apply json_ind' | apply IH].
    - induction l as [|[k x] l IH]; constructor; [apply json_ind' | apply IH].
  Qed.
End Ind.

(** ** Texts that count as true *)
Definition solid (c : ascii) : bool := negb (mem c ($" ")) && negb (mem (to_lower c) ($"false" ++ [chr 10])).
Lemma trim_left_keep t s c : c ∈ s -> mem c t = false -> c ∈ trim_left t s.
Proof.
  induction s as [|x s IH]; [intros h; inversion h|]. intros h hm. cbn [trim_left].
  apply elem_of_cons in h as [<- | h].
  - rewrite hm. left.
  - destruct (mem x t); [auto | right; auto].
Qed.
Lemma solid_true s c : c ∈ s -> solid c = true -> string_to_bool s = true.
Proof.
  intros hc hs. unfold solid in hs. apply andb_prop in hs as [h1 h2]. apply negb_true_iff in h1, h2.
  assert (ht : c ∈ trim ($" ") s).
  { unfold trim, trim_right. apply trim_left_keep; [|done]. apply elem_of_reverse, trim_left_keep; [|done].
    by apply elem_of_reverse. }
  assert (hl : to_lower c ∈ to_lower_case (trim ($" ") s)) by (by apply (elem_of_list_fmap_1 to_lower)).
  unfold string_to_bool. set (n := to_lower_case _) in *. clearbody n.
  unfold mem in h2. apply bool_decide_eq_false in h2.
  repeat (rewrite bool_decide_eq_false_2; [|]); try reflexivity; intros ->; apply h2; try (by inversion hl);
    apply elem_of_app; auto.
Qed.
Definition true_text (s : str) : Prop := exists c, c ∈ s /\ solid c = true.
Lemma true_text_bool s : true_text s -> string_to_bool s = true.
Proof. intros (c & h1 & h2). eauto using solid_true. Qed.
Lemma true_text_app_l a b : true_text a -> true_text (a ++ b).
Proof. intros (c & h1 & h2). exists c. rewrite elem_of_app. auto. Qed.
Lemma true_text_app_r a b : true_text b -> true_text (a ++ b).
Proof. intros (c & h1 & h2). exists c. rewrite elem_of_app. auto. Qed.

(** ** The tokenizer *)
Definition Nx (i : chars) (t : option token) (i' : chars) : Prop := exists n0, forall n, (n0 <= n)%nat -> next_token n i = Ok (t, i').
Inductive Toks : str -> list token -> Prop :=
| Toks_end r i : Nx (Some r) None i -> Toks r []
| Toks_cons r t r' ts : Nx (Some r) (Some t) (Some r') -> Toks r' ts -> Toks r (t :: ts).
Lemma Toks_tokens r ts : Toks r ts -> exists n0, forall n, (n0 <= n)%nat -> tokens n (Some r) = Ok ts.
Proof.
  induction 1 as [r i [n0 h] | r t r' ts [n0 h] _ [n1 IH]].
  - exists (S n0). intros [|n] hn; [lia|]. cbn [tokens]. rewrite h by lia. reflexivity.
  - exists (S (n0 + n1)). intros [|n] hn; [lia|]. cbn [tokens]. rewrite h by lia. cbn [rbind fst snd]. rewrite IH by lia. reflexivity.
Qed.
Lemma Toks_nil : Toks [] [].
Proof. apply (Toks_end _ (Some [])). exists 1%nat. intros [|n] hn; [lia|]. reflexivity. Qed.
Lemma Toks_same r r' ts : (forall t i, Nx (Some r') t i -> Nx (Some r) t i) -> Toks r' ts -> Toks r ts.
Proof. intros h H. inversion H; subst; [eapply Toks_end | eapply Toks_cons]; eauto. Qed.

Definition of_chars (P : ascii -> bool) : bool := forallb P all_chars.
Definition kind_of (c : ascii) : nat :=
  if mem c CHARS then 0 else if mem c DIGITS then 1 else if mem c WHITESPACES then 2 else if str_eqb [c] quote then 3
  else match punctuation [c] with Some _ => 4 | None => 5 end.
Lemma plus_minus c : str_eqb [c] ($"+") || str_eqb [c] ($"-") = true -> mem c DIGITS = true.
Proof.
  intros h. apply orb_prop in h as [h | h]; apply bool_decide_eq_true in h; injection h as ->; reflexivity.
Qed.
Lemma one_not_nil c : str_eqb [c] [] = false.
Proof. reflexivity. Qed.

Lemma Toks_white c r ts : c ∈ [chr 32; chr 9; chr 10; chr 13] -> Toks r ts -> Toks (c :: r) ts.
Proof.
  intros hc. apply Toks_same. intros t i [n0 h]. exists (S n0). intros [|n] hn; [lia|]. rewrite <- (h n) by lia.
  repeat (apply elem_of_cons in hc as [-> | hc]; [reflexivity|]). inversion hc.
Qed.
Lemma Toks_whites w r ts : white w -> Toks r ts -> Toks (w ++ r) ts.
Proof. induction 1; cbn [app]; auto using Toks_white. Qed.
Lemma Toks_punct c k r ts : (c, k) ∈ [(chr 58, KColon); (chr 44, KComma); (chr 91, KBracketOpen); (chr 93, KBracketClose);
                                       (chr 123, KCurlyOpen); (chr 125, KCurlyClose)] ->
  Toks r ts -> Toks (c :: r) ((k, [c]) :: ts).
Proof.
  intros hc. apply Toks_cons. exists 1%nat. intros [|n] hn; [lia|].
  repeat (apply elem_of_cons in hc as [[= -> ->] | hc]; [reflexivity|]). inversion hc.
Qed.

Definition stop (r : str) : Prop := exists c r', r = c :: r' /\ mem c CHARS = false /\ mem c DIGITS = false.
Lemma get_digit_run t : forall r acc, Forall (fun x => x ∈ $"0123456789.-+e") t -> stop r ->
  forall n, (length t < n)%nat -> get_digit n (Some (t ++ r)) acc = Ok (acc ++ t, Some r).
Proof.
  induction t as [|c t IH]; intros r acc ht hr [|n] hn; cbn [length] in hn; try lia.
  - destruct hr as (c & r' & -> & _ & h). cbn [app get_digit t_peek c_peek among]. rewrite h. by rewrite app_nil_r.
  - inversion ht as [|? ? h1 h2]; subst. cbn [app get_digit t_peek c_peek among].
    replace (mem c DIGITS) with true by (symmetry; by apply mem_spec). cbn [rbind c_next fst snd].
    rewrite IH by (auto; lia). by rewrite <- app_assoc.
Qed.
Lemma digit_not_char c : c ∈ $"0123456789.-+e" -> c <> chr 101 -> mem c CHARS = false.
Proof. intros hc h. repeat (apply elem_of_cons in hc as [-> | hc]; [try reflexivity; by contradict h|]). inversion hc. Qed.
Lemma Toks_num t r ts : number_text t -> stop r -> Toks r ts -> Toks (t ++ r) ((KNumber, t) :: ts).
Proof.
  intros (c & t' & -> & he & ht) hr. apply Toks_cons. exists (S (S (length (c :: t')))). intros [|n] hn; [lia|].
  pose proof (get_digit_run (c :: t') r [] ht hr n ltac:(lia)) as hd. inversion ht as [|? ? h1 h2]; subst.
  change ((c :: t') ++ r) with (c :: t' ++ r) in *. cbn [next_token t_peek c_peek]. rewrite one_not_nil. cbn [among].
  rewrite (digit_not_char c h1 he). replace (mem c DIGITS) with true by (symmetry; by apply mem_spec). cbn [orb].
  match goal with |- rbind ?x _ = _ => replace x with (@Ok (str * chars) (c :: t', Some r)) by (symmetry; exact hd) end. reflexivity.
Qed.

Lemma get_id_run t : forall r acc, Forall (fun x => x ∈ $"truefalsn") t -> stop r ->
  forall n, (length t < n)%nat -> get_id n (Some (t ++ r)) acc = Ok (acc ++ t, Some r).
Proof.
  induction t as [|c t IH]; intros r acc ht hr [|n] hn; cbn [length] in hn; try lia.
  - destruct hr as (c & r' & -> & h0 & h). cbn [app get_id t_peek c_peek among]. rewrite h0, h. cbn [orb]. rewrite andb_false_r.
    by rewrite app_nil_r.
  - inversion ht as [|? ? h1 h2]; subst. cbn [app get_id t_peek c_peek among].
    assert (hc : mem c CHARS = true /\ string_to_bool [c] = true).
    { clear -h1. repeat (apply elem_of_cons in h1 as [-> | h1]; [split; by vm_compute|]). inversion h1. }
    destruct hc as [-> ->]. cbn [orb andb rbind c_next fst snd].
    rewrite IH by (auto; lia). by rewrite <- app_assoc.
Qed.
Lemma Toks_word t r ts : t ∈ [$"null"; $"true"; $"false"] -> stop r -> Toks r ts -> Toks (t ++ r) (word t :: ts).
Proof.
  intros ht hr. apply Toks_cons. exists 10%nat. intros [|n] hn; [lia|].
  assert (hf : Forall (fun x => x ∈ $"truefalsn") t /\ (length t < n)%nat /\ exists c t', t = c :: t' /\ mem c CHARS = true).
  { repeat (apply elem_of_cons in ht as [-> | ht]; [split; [apply (bool_decide_unpack _); by vm_compute|]; cbn; split; [lia|]; eauto|]). inversion ht. }
  destruct hf as (hf & hl & c & t' & -> & hc).
  pose proof (get_id_run (c :: t') r [] hf hr n hl) as hd.
  change ((c :: t') ++ r) with (c :: t' ++ r) in *. cbn [next_token t_peek c_peek]. rewrite one_not_nil. cbn [among].
  rewrite hc. match goal with |- rbind ?x _ = _ => replace x with (@Ok (str * chars) (c :: t', Some r)) by (symmetry; exact hd) end. reflexivity.
Qed.

Lemma read_string_run k : forall s t r acc, (length s <= k)%nat -> unescape s = Some t ->
  forall n, (length s < n)%nat -> read_string n (Some (s ++ quote ++ r)) acc = Ok (acc ++ t, Some r).
Proof.
  induction k as [|k IH]; intros [|c s] t r acc hk hu [|n] hn; cbn [length] in *; try lia.
  - injection hu as <-. cbn. by rewrite app_nil_r.
  - injection hu as <-. cbn. by rewrite app_nil_r.
  - cbn [app read_string c_peek rbind]. cbn [unescape] in hu. unfold str_eqb, quote.
    case_bool_decide as E1; [done|]. rewrite bool_decide_eq_false_2 by congruence.
    case_bool_decide as E2.
    + subst c. rewrite bool_decide_eq_true_2 by done. destruct s as [|d s]; [done|].
      destruct (unescape s) as [u|] eqn:Eu; [|done]. injection hu as <-. cbn [c_next rbind fst snd app].
      change (chr 34 :: r) with (quote ++ r). cbn [length] in hk, hn. rewrite (IH s u) by (auto; lia). by rewrite <- app_assoc.
    + rewrite bool_decide_eq_false_2 by congruence. destruct (unescape s) as [u|] eqn:Eu; [|done]. injection hu as <-.
      cbn [c_next rbind fst snd]. change ([chr 34] ++ r) with (quote ++ r). rewrite (IH s u) by (auto; lia). by rewrite <- app_assoc.
Qed.
Lemma Toks_str s t r ts : unescape s = Some t -> Toks r ts -> Toks (quote ++ s ++ quote ++ r) ((KString, t) :: ts).
Proof.
  intros hu. apply Toks_cons. exists (S (S (length s))). intros [|n] hn; [lia|].
  pose proof (read_string_run (length s) s t r [] (le_n _) hu n ltac:(lia)) as hd.
  change (quote ++ s ++ quote ++ r) with (chr 34 :: s ++ quote ++ r).
  cbn [next_token t_peek c_peek]. rewrite one_not_nil.
  change (among CHARS [chr 34]) with false. change (among DIGITS [chr 34]) with false.
  change (str_eqb [chr 34] ($"+")) with false. change (str_eqb [chr 34] ($"-")) with false.
  change (among WHITESPACES [chr 34]) with false. change (str_eqb [chr 34] quote) with true.
  cbn [orb rbind c_next snd]. rewrite hd. reflexivity.
Qed.

(** ** The tokens of a value *)
Definition comma : token := (KComma, $",").
Definition joined {A} (sep : list A) (items : list (list A)) : list A :=
  match items with [] => [] | x :: r => x ++ concat (map (app sep) r) end.
Fixpoint value_tokens (v : json) : list token :=
  match v with
  | JNull => [(KNull, $"null")]
  | JBool b => [(KBoolean, bool_text b)]
  | JNum t => [(KNumber, t)]
  | JStr s => [(KString, plain_of s)]
  | JArr l => (KBracketOpen, $"[") :: joined [comma] (map value_tokens l) ++ [(KBracketClose, $"]")]
  | JObj l =>
      (KCurlyOpen, $"{") ::
      joined [comma] (map (fun p => (KString, plain_of (fst p)) :: (KColon, $":") :: value_tokens (snd p)) l) ++
      [(KCurlyClose, $"}")]
  end.

(** The loops join the members, as long as the text so far is true. *)
Definition loop (sep : str) := fix go (acc : str) (items : list str) := match items with [] => acc | x :: r => go (add_member sep acc x) r end.
Lemma loop_true sep items : forall acc, true_text acc -> loop sep acc items = acc ++ concat (map (app sep) items).
Proof.
  induction items as [|x r IH]; intros acc ha; cbn [loop map concat]; [by rewrite app_nil_r|].
  unfold add_member. rewrite (true_text_bool _ ha). fold (loop sep). rewrite IH by (by apply true_text_app_l, true_text_app_l).
  by rewrite <- !app_assoc.
Qed.
Lemma loop_joined sep x r : true_text x \/ r = [] -> loop sep [] (x :: r) = joined sep (x :: r).
Proof.
  intros h. cbn [loop]. fold (loop sep). change (add_member sep [] x) with x. destruct h as [h | ->].
  - by rewrite loop_true.
  - cbn. by rewrite app_nil_r.
Qed.
Lemma write_arr w level l :
  write w level (JArr l) = $"[" ++ w_start w ++ loop ($"," ++ w_end w) [] (map (fun x => indent w (S level) ++ write w (S level) x) l)
                           ++ w_end w ++ indent w level ++ $"]".
Proof.
  cbn [write]. do 2 f_equal. apply (f_equal (fun x => x ++ _)). generalize (@nil ascii) as acc. induction l as [|x l IH]; intros acc; [done|].
  cbn [map loop]. apply IH.
Qed.
Definition member_text (w : writer) (level : nat) (p : str * json) : str :=
  indent w (S level) ++ quote ++ fst p ++ quote ++ $": " ++ write w (S level) (snd p).
Lemma write_obj w level l :
  write w level (JObj l) = $"{" ++ w_start w ++ loop ($"," ++ w_end w) [] (map (member_text w level) l)
                           ++ w_end w ++ indent w level ++ $"}".
Proof.
  cbn [write]. do 2 f_equal. apply (f_equal (fun x => x ++ _)). generalize (@nil ascii) as acc. induction l as [|[k x] l IH]; intros acc; [done|].
  cbn [map loop]. apply IH.
Qed.

Lemma true_text_quote a b : true_text (a ++ quote ++ b).
Proof. apply true_text_app_r, true_text_app_l. exists (chr 34). split; [left | by vm_compute]. Qed.
Lemma write_true w level v : readable v -> v <> JBool false -> true_text (write w level v).
Proof.
  intros hr hf. destruct v as [|[]|t|s|l|l]; cbn [write scalar_text].
  - exists (chr 110). split; [left | by vm_compute].
  - exists (chr 116). split; [left | by vm_compute].
  - done.
  - destruct hr as (c & r & -> & he & ht). inversion ht as [|? ? h1 h2]; subst. exists c. split; [left|].
    clear -h1 he. repeat (apply elem_of_cons in h1 as [-> | h1]; [try (by vm_compute); by contradict he|]). inversion h1.
  - apply (true_text_quote []).
  - apply true_text_app_l. exists (chr 91). split; [left | by vm_compute].
  - apply true_text_app_l. exists (chr 123). split; [left | by vm_compute].
Qed.
Lemma readable_arr l : readable (JArr l) -> Forall readable l.
Proof. intros [_ h]. induction l as [|x l IH]; constructor; [apply h | apply IH, h]. Qed.
Lemma readable_obj l : readable (JObj l) -> Forall (fun p => is_Some (unescape (fst p)) /\ readable (snd p)) l.
Proof. cbn. induction l as [|[k x] l IH]; intros h; constructor; [apply h | apply IH, h]. Qed.
Lemma arr_loop sep w level l : readable (JArr l) ->
  loop sep [] (map (fun x => indent w level ++ write w level x) l) = joined sep (map (fun x => indent w level ++ write w level x) l).
Proof.
  intros hr. pose proof (readable_arr _ hr) as ha. destruct hr as [hf _]. destruct l as [|x l]; [done|].
  cbn [map]. apply loop_joined. inversion ha as [|? ? hx hl]; subst.
  destruct l as [|y l]; [by right|]. left. apply true_text_app_r, write_true; [done|]. intros ->. by apply (hf y l).
Qed.
Lemma obj_loop sep w level l :
  loop sep [] (map (member_text w level) l) = joined sep (map (member_text w level) l).
Proof. destruct l as [|x l]; [done|]. cbn [map]. apply loop_joined. left. apply true_text_quote. Qed.

Lemma white_spaces n : white (List.repeat (chr 32) n).
Proof. induction n; constructor; [left | done]. Qed.
Lemma stop_cons c r : mem c CHARS = false -> mem c DIGITS = false -> stop (c :: r).
Proof. intros h1 h2. by exists c, r. Qed.
Lemma stop_white u r : white u -> stop r -> stop (u ++ r).
Proof.
  intros hu hr. destruct hu as [|c u hc hu]; [done|]. 
  repeat (apply elem_of_cons in hc as [-> | hc]; [apply stop_cons; by vm_compute|]). inversion hc.
Qed.
(** Joined items followed by something that stops. *)
Lemma Toks_joined {A} (text : A -> str) (toks : A -> list token) (e : str) (l : list A) :
  white e ->
  Forall (fun x => forall r ts, stop r -> Toks r ts -> Toks (text x ++ r) (toks x ++ ts)) l ->
  forall r ts, stop r -> Toks r ts -> Toks (joined ($"," ++ e) (map text l) ++ r) (joined [comma] (map toks l) ++ ts).
Proof.
  intros he hl r ts hr ht. destruct hl as [|x l hx hl]; [done|]. cbn [map joined]. rewrite <- !app_assoc.
  assert (h : stop (concat (map (app ($"," ++ e)) (map text l)) ++ r) /\
              Toks (concat (map (app ($"," ++ e)) (map text l)) ++ r) (concat (map (app [comma]) (map toks l)) ++ ts)).
  { induction hl as [|y l hy hl [IH1 IH2]]; [done|]. cbn [map concat]. rewrite <- !app_assoc. split.
    - apply stop_cons; by vm_compute.
    - cbn [app]. apply (Toks_punct (chr 44) KComma); [apply (bool_decide_unpack _); by vm_compute|].
      apply Toks_whites; auto. }
  destruct h. auto.
Qed.

Lemma write_toks w v : white (w_start w) -> white (w_end w) ->
  readable v -> forall level r ts, stop r \/ container v -> Toks r ts -> Toks (write w level v ++ r) (value_tokens v ++ ts).
Proof.
  intros hs he. induction v as [|b|t|s|l IH|l IH] using json_ind'; intros hv level r ts hr ht.
  - destruct hr as [hr | []]. apply (Toks_word ($"null")); [left | done | done].
  - destruct hr as [hr | []]. destruct b; [apply (Toks_word ($"true")) | apply (Toks_word ($"false"))]; auto;
      apply (bool_decide_unpack _); by vm_compute.
  - destruct hr as [hr | []]. by apply Toks_num.
  - destruct hv as [u hu]. cbn [write scalar_text value_tokens app]. unfold plain_of. rewrite hu. cbn [default].
    rewrite <- app_assoc. change ((quote ++ ?x) ++ r) with (quote ++ (x ++ r)).
    rewrite <- app_assoc. by apply Toks_str.
  - rewrite write_arr, (arr_loop _ _ _ _ hv). rewrite <- !app_assoc. cbn [value_tokens app].
    apply (Toks_punct (chr 91) KBracketOpen); [apply (bool_decide_unpack _); by vm_compute|].
    apply Toks_whites; [done|]. rewrite <- app_assoc. apply Toks_joined; [done | | |].
    + apply readable_arr in hv. clear -IH hv. induction IH as [|x l hx hl IHl]; constructor.
      * inversion hv; subst. intros r ts hr ht. rewrite <- app_assoc. apply Toks_whites; [apply white_spaces|]. auto.
      * inversion hv; auto.
    + apply stop_white; [done|]. apply stop_white; [apply white_spaces|]. apply stop_cons; by vm_compute.
    + apply Toks_whites; [done|]. apply Toks_whites; [apply white_spaces|].
      apply (Toks_punct (chr 93) KBracketClose); [apply (bool_decide_unpack _); by vm_compute | done].
  - rewrite write_obj, obj_loop. rewrite <- !app_assoc. cbn [value_tokens app].
    apply (Toks_punct (chr 123) KCurlyOpen); [apply (bool_decide_unpack _); by vm_compute|].
    apply Toks_whites; [done|]. rewrite <- app_assoc. apply Toks_joined; [done | | |].
    + apply readable_obj in hv. clear -IH hv. induction IH as [|[k x] l hx hl IHl]; constructor.
      * inversion hv as [|? ? [[u hu] hv1] hv2]; subst. intros r ts hr ht. unfold member_text. cbn [fst snd].
        rewrite <- !app_assoc. apply Toks_whites; [apply white_spaces|]. cbn [app]. unfold plain_of. cbn [fst] in hu. rewrite hu. cbn [default].
        apply Toks_str; [done|]. apply (Toks_punct (chr 58) KColon); [apply (bool_decide_unpack _); by vm_compute|].
        apply Toks_white; [left|]. apply hx; auto.
      * inversion hv; auto.
    + apply stop_white; [done|]. apply stop_white; [apply white_spaces|]. apply stop_cons; by vm_compute.
    + apply Toks_whites; [done|]. apply Toks_whites; [apply white_spaces|].
      apply (Toks_punct (chr 125) KCurlyClose); [apply (bool_decide_unpack _); by vm_compute | done].
Qed.

(** ** The reader *)
Definition Pv (v : json) : Prop := exists n0, forall n, (n0 <= n)%nat -> forall x rest t0 tl,
  value_tokens v ++ x :: rest = t0 :: tl -> parse_value n (t0, tl) = Ok (as_read v, (x, rest)).
Lemma tokens_head v : exists t0 tl, value_tokens v = t0 :: tl /\ fst t0 <> KBracketClose /\ fst t0 <> KCurlyClose /\ fst t0 <> KComma.
Proof. destruct v; do 2 eexists; (split; [reflexivity|]); by repeat split. Qed.
Lemma kind_no k t r : fst t <> k -> is_kind k (t, r) = false.
Proof. apply bool_decide_eq_false_2. Qed.

Lemma items_ok l : Forall Pv l -> exists n0, forall n, (n0 <= n)%nat -> forall rest t0 tl,
  joined [comma] (map value_tokens l) ++ (KBracketClose, $"]") :: rest = t0 :: tl ->
  parse_items n (t0, tl) = Ok (map as_read l, ((KBracketClose, $"]"), rest)).
Proof.
  induction 1 as [|v l [n1 hv] hl [n2 IH]].
  - exists 1%nat. intros [|n] hn rest t0 tl; [lia|]. cbn [map joined app]. intros [= <- <-]. reflexivity.
  - exists (S (n1 + n2)). intros [|n] hn rest t0 tl; [lia|]. cbn [map joined]. rewrite <- app_assoc.
    destruct (tokens_head v) as (h0 & hr & Eh & hk1 & hk2 & hk3). intros E.
    assert (Et : t0 = h0) by (rewrite Eh in E; injection E as E; congruence). subst t0.
    cbn [parse_items]. rewrite kind_no by done.
    destruct l as [|v' l].
    + cbn [map concat app] in *. rewrite (hv n ltac:(lia) _ _ _ _ E). reflexivity.
    + change (concat (map (app [comma]) (map value_tokens (v' :: l))) ++ ?t)
        with (comma :: ((value_tokens v' ++ concat (map (app [comma]) (map value_tokens l))) ++ t)) in E.
      rewrite (hv n ltac:(lia) _ _ _ _ E). cbn [rbind snd].
      destruct (tokens_head v') as (h1 & hr1 & Eh1 & _).
      set (tail := (value_tokens v' ++ _) ++ _) in *.
      destruct tail as [|y tl'] eqn:Etail; [unfold tail in Etail; rewrite Eh1 in Etail; done|].
      change (is_kind KComma (comma, y :: tl')) with true. unfold require at 1. cbn [fst snd].
      change (is_kind KComma (comma, y :: tl')) with true. cbn [rbind].
      rewrite (IH n ltac:(lia) rest y tl' Etail). reflexivity.
Qed.
Definition member_tokens (p : str * json) : list token := (KString, plain_of (fst p)) :: (KColon, $":") :: value_tokens (snd p).
Lemma members_ok l : Forall (fun p => Pv (snd p)) l -> exists n0, forall n, (n0 <= n)%nat -> forall rest t0 tl,
  joined [comma] (map member_tokens l) ++ (KCurlyClose, $"}") :: rest = t0 :: tl ->
  parse_members n (t0, tl) = Ok (map (fun p => (plain_of (fst p), as_read (snd p))) l, ((KCurlyClose, $"}"), rest)).
Proof.
  induction 1 as [|[k v] l [n1 hv] hl [n2 IH]].
  - exists 1%nat. intros [|n] hn rest t0 tl; [lia|]. cbn [map joined app]. intros [= <- <-]. reflexivity.
  - cbn [snd] in hv. exists (S (n1 + n2)). intros [|n] hn rest t0 tl; [lia|]. cbn [map joined]. rewrite <- app_assoc.
    change (member_tokens (k, v) ++ ?t) with ((KString, plain_of k) :: (KColon, $":") :: (value_tokens v ++ t)). intros E.
    assert (Et : t0 = (KString, plain_of k)) by congruence.
    assert (El : tl = (KColon, $":") :: value_tokens v ++ concat (map (app [comma]) (map member_tokens l)) ++ (KCurlyClose, $"}") :: rest) by congruence.
    clear E. subst t0 tl.
    cbn [parse_members]. rewrite kind_no by done. cbn [t_next snd fst rbind].
    destruct (tokens_head v) as (h0 & hr & Eh & hk1 & hk2 & hk3).
    set (body := value_tokens v ++ _). destruct body as [|b0 bl] eqn:Eb; [unfold body in Eb; by rewrite Eh in Eb|].
    unfold body in Eb. clear body. unfold require at 1; cbn [snd]. change (is_kind KColon ((KColon, ?s), ?r)) with true. cbn [rbind].
    destruct l as [|[k' v'] l].
    + cbn [map concat app] in *. rewrite (hv n ltac:(lia) _ _ _ _ Eb). reflexivity.
    + change (concat (map (app [comma]) (map member_tokens ((k', v') :: l))) ++ ?t)
        with (comma :: ((member_tokens (k', v') ++ concat (map (app [comma]) (map member_tokens l))) ++ t)) in Eb.
      rewrite (hv n ltac:(lia) _ _ _ _ Eb). cbn [rbind snd].
      set (tail := (member_tokens _ ++ _) ++ _) in *.
      destruct tail as [|y tl'] eqn:Etail; [done|].
      change (is_kind KComma (comma, y :: tl')) with true. unfold require at 1. cbn [fst snd].
      change (is_kind KComma (comma, y :: tl')) with true. cbn [rbind].
      rewrite (IH n ltac:(lia) rest y tl' Etail). reflexivity.
Qed.
Definition after (t : token) (rest : list token) : tit := match rest with [] => (t, []) | x :: r => (x, r) end.
Lemma array_ok l : Forall Pv l -> exists n0, forall n, (n0 <= n)%nat -> forall rest t0 tl,
  value_tokens (JArr l) ++ rest = t0 :: tl ->
  parse_array n (t0, tl) = Ok (as_read (JArr l), after (KBracketClose, $"]") rest).
Proof.
  intros [n0 h]%items_ok. exists (S n0). intros [|n] hn rest t0 tl; [lia|]. cbn [value_tokens]. intros E.
  assert (Et : t0 = (KBracketOpen, $"[")) by (cbn [app] in E; congruence).
  assert (El : tl = joined [comma] (map value_tokens l) ++ (KBracketClose, $"]") :: rest).
  { cbn [app] in E. rewrite <- app_assoc in E. injection E as _ E. rewrite <- E. reflexivity. }
  clear E. subst t0 tl. cbn [parse_array]. unfold require at 1; cbn [snd]. change (is_kind KBracketOpen ((KBracketOpen, ?s), ?r)) with true.
  set (body := joined _ _ ++ _) in *. destruct body as [|b0 bl] eqn:Eb.
  { unfold body in Eb. apply app_eq_nil in Eb as [_ Eb]. done. }
  cbn [rbind]. rewrite (h n ltac:(lia) rest b0 bl Eb). cbn [rbind fst snd]. 
  unfold require. change (is_kind KBracketClose ((KBracketClose, ?s), ?r)) with true. cbn [snd]. by destruct rest.
Qed.
Lemma object_ok l : Forall (fun p => Pv (snd p)) l -> exists n0, forall n, (n0 <= n)%nat -> forall rest t0 tl,
  value_tokens (JObj l) ++ rest = t0 :: tl ->
  parse_object n (t0, tl) = Ok (as_read (JObj l), after (KCurlyClose, $"}") rest).
Proof.
  intros [n0 h]%members_ok. exists (S n0). intros [|n] hn rest t0 tl; [lia|]. cbn [value_tokens]. intros E.
  assert (Et : t0 = (KCurlyOpen, $"{")) by (cbn [app] in E; congruence).
  assert (El : tl = joined [comma] (map member_tokens l) ++ (KCurlyClose, $"}") :: rest).
  { cbn [app] in E. rewrite <- app_assoc in E. injection E as _ E. rewrite <- E. reflexivity. }
  clear E. subst t0 tl. cbn [parse_object]. unfold require at 1; cbn [snd]. change (is_kind KCurlyOpen ((KCurlyOpen, ?s), ?r)) with true.
  set (body := joined _ _ ++ _) in *. destruct body as [|b0 bl] eqn:Eb.
  { unfold body in Eb. apply app_eq_nil in Eb as [_ Eb]. done. }
  cbn [rbind]. rewrite (h n ltac:(lia) rest b0 bl Eb). cbn [rbind fst snd].
  unfold require. change (is_kind KCurlyClose ((KCurlyClose, ?s), ?r)) with true. cbn [snd]. by destruct rest.
Qed.
Lemma all_Pv v : Pv v.
Proof.
  induction v as [|b|t|s|l IH|l IH] using json_ind'.
  1-4: exists 1%nat; intros [|n] hn x rest t0 tl; [lia|]; cbn [value_tokens app]; intros [= <- <-]; try destruct b; reflexivity.
  - apply array_ok in IH as [n0 h]. exists (S n0). intros [|n] hn x rest t0 tl E; [lia|].
    assert (Et : t0 = (KBracketOpen, $"[")) by (cbn [value_tokens app] in E; congruence).
    rewrite Et in *. cbn [parse_value fst]. by rewrite (h n ltac:(lia) _ _ _ E).
  - apply object_ok in IH as [n0 h]. exists (S n0). intros [|n] hn x rest t0 tl E; [lia|].
    assert (Et : t0 = (KCurlyOpen, $"{")) by (cbn [value_tokens app] in E; congruence).
    rewrite Et in *. cbn [parse_value fst]. by rewrite (h n ltac:(lia) _ _ _ E).
Qed.
Lemma read_back w level v : white (w_start w) -> white (w_end w) -> container v -> readable v ->
  reads (write w level v) (as_read v).
Proof.
  intros hs he hc hv.
  pose proof (write_toks w v hs he hv level [] [] (or_intror hc) Toks_nil) as h. rewrite !app_nil_r in h.
  apply Toks_tokens in h as [n0 h]. destruct v as [| | | |l|l]; try done.
  - destruct (array_ok l) as [n1 ha]; [apply Forall_forall; intros; apply all_Pv|].
    exists (n0 + n1)%nat. intros n hn. unfold parse. rewrite h by lia. cbn [rbind].
    destruct (value_tokens (JArr l)) as [|t0 tl] eqn:E; [done|]. pose proof (ha n ltac:(lia) []) as ha'.
    rewrite app_nil_r in ha'. specialize (ha' t0 tl eq_refl). assert (Et : fst t0 = KBracketOpen) by (cbn [value_tokens] in E; by injection E as <- _).
    rewrite Et, ha'. reflexivity.
  - destruct (object_ok l) as [n1 ha]; [apply Forall_forall; intros; apply all_Pv|].
    exists (n0 + n1)%nat. intros n hn. unfold parse. rewrite h by lia. cbn [rbind].
    destruct (value_tokens (JObj l)) as [|t0 tl] eqn:E; [done|]. pose proof (ha n ltac:(lia) []) as ha'.
    rewrite app_nil_r in ha'. specialize (ha' t0 tl eq_refl). assert (Et : fst t0 = KCurlyOpen) by (cbn [value_tokens] in E; by injection E as <- _).
    rewrite Et, ha'. reflexivity.
Qed.

Lemma unescape_plain s : plain s -> unescape s = Some s.
Proof.
  intros [h1 h2]. induction s as [|c s IH]; [done|]. cbn [unescape]. apply not_elem_of_cons in h1 as [h1 h1'], h2 as [h2 h2'].
  rewrite !bool_decide_eq_false_2 by congruence. by rewrite IH.
Qed.
Lemma faithful_ok v : faithful v -> readable v /\ as_read v = v.
Proof.
  induction v as [|b|t|s|l IH|l IH] using json_ind'; cbn [faithful readable as_read]; auto.
  - done.
  - intros h%unescape_plain. unfold plain_of. rewrite h. split; [by eexists | done].
  - intros [hf h]. enough (hh : (fix all l := match l with [] => True | x :: r => readable x /\ all r end) l /\ map as_read l = l).
    { destruct hh as [? ->]. auto. }
    clear hf. induction IH as [|x l hx hl IHl]; [done|]. destruct h as [h1 h2]. destruct (hx h1) as [? E], (IHl h2) as [? E'].
    cbn [map]. rewrite E, E'. auto.
  - intros h. enough (hh : (fix all l := match l with [] => True | (k, x) :: r => (is_Some (unescape k) /\ readable x) /\ all r end) l /\
                          map (fun p => (plain_of (fst p), as_read (snd p))) l = l).
    { destruct hh as [? ->]. auto. }
    induction IH as [|[k x] l hx hl IHl]; [done|]. destruct h as [[hk h1] h2]. destruct (hx h1) as [? E], (IHl h2) as [? E'].
    cbn [map fst snd]. cbn [snd] in E. apply unescape_plain in hk. unfold plain_of at 1. rewrite hk. cbn [default]. rewrite E, E'.
    repeat split; eauto.
Qed.

(** ** The text of the plain writer *)
Lemma no_indent level : indent plain_writer level = [].
Proof. unfold indent. cbn [w_indents plain_writer]. by rewrite Nat.mul_0_r. Qed.
Lemma plain_text v : forall level, write plain_writer level v = value_text v.
Proof.
  induction v as [|b|t|s|l IH|l IH] using json_ind'; intros level; cbn [write value_text]; try done.
  - rewrite no_indent. rewrite no_indent. cbn [w_start w_end plain_writer app].
    change (chr 91 :: chr 32 :: ?x) with ($"[ " ++ x).
    apply (f_equal (app ($"[ "))). apply (f_equal (fun x => x ++ _)). generalize (@nil ascii) as acc.
    induction IH as [|x l hx hl IHl]; intros acc; [done|]. rewrite hx. apply IHl.
  - rewrite no_indent. rewrite no_indent. cbn [w_start w_end plain_writer app].
    change (chr 123 :: chr 32 :: ?x) with ($"{ " ++ x).
    apply (f_equal (app ($"{ "))). apply (f_equal (fun x => x ++ _)). generalize (@nil ascii) as acc.
    induction IH as [|[k x] l hx hl IHl]; intros acc; [done|]. cbn [snd] in hx. rewrite hx. apply IHl.
Qed.
