(** Proofs about the JSON builders. *)
From Verif Require Import Base Base_Proofs Text_Model Text_Proofs Json_Model Json_Spec Json_Proofs Build_Model Build_Spec.

Lemma print_int_number z : number_text (print_int z).
Proof.
  destruct (print_int z) as [|c r] eqn:E.
  - exfalso. destruct z; cbn in E; try discriminate E. unfold digits in E. cbn [digits_fuel] in E. case_match; [done|]. by apply app_eq_nil in E as [_ ?].
  - exists c, r. split; [done|].
    assert (F : forall x, x ∈ c :: r -> x ∈ $"0123456789.-+e" /\ x <> chr 101).
    { intros x H. rewrite <- E in H. apply print_int_chars in H as [->|H]; [split; [apply (bool_decide_unpack _); vm_compute; exact I|done]|].
      revert x H. assert (A : Forall (fun x => is_digit x = true -> x ∈ $"0123456789.-+e" /\ x <> chr 101) all_chars).
      { apply (bool_decide_unpack _). vm_compute. exact I. }
      rewrite Forall_forall in A. intros x H. apply A; [apply elem_of_list_In, char_in|exact H]. }
    split; [apply F; by left|]. apply Forall_forall. intros x H. by apply F.
Qed.

(** Styles whose additions are blank *)
Definition fair (y : style) : Prop := white (y_line y) /\ white (y_unit y).
Lemma white_indent y n : white (y_unit y) -> white (indentation y n).
Proof. intros H. unfold indentation. induction (Z.to_nat n) as [|k IH]; cbn [List.repeat concat]; [constructor|]. by apply Forall_app. Qed.
Lemma make_app y a b st : make y (a ++ b) st = make y b (make y a st).
Proof. apply fold_left_app. Qed.

Definition comma_if (first : bool) : list token := if first then [] else [comma].
Definition key_tokens (k : option str) : list token := match k with Some k => [(KString, plain_of k); (KColon, $":")] | None => [] end.
Definition good_key (k : option str) : Prop := match k with Some k => is_Some (unescape k) | None => True end.
(** Some calls append a text with these tokens, and come back to the level. *)
Definition does (y : style) (cs : list call) (toks : bool -> list token) : Prop :=
  forall b, exists t, make y cs b = Builder (match cs with [] => b_first b | _ => false end) (b_value b ++ t) (b_level b) /\
    (forall r ts, stop r -> Toks r ts -> Toks (t ++ r) (toks (b_first b) ++ ts)) /\ (b_first b = false -> forall r, stop r -> stop (t ++ r)).

Lemma stop_comma r : stop (chr 44 :: r).
Proof. apply stop_cons; by vm_compute. Qed.
Lemma Toks_separator y line b r ts : fair y -> Toks r ts -> Toks (separator y line b ++ r) (comma_if (b_first b) ++ ts).
Proof.
  intros [F _] H. unfold separator, comma_if. destruct (b_first b); [done|]. change (($", " ++ ?l) ++ r) with (chr 44 :: (chr 32 :: l ++ r)).
  cbn [app]. apply (Toks_punct (chr 44) KComma); [apply (bool_decide_unpack _); by vm_compute|]. apply Toks_white; [by left|].
  apply Toks_whites; [|done]. destruct line; [done|constructor].
Qed.
Lemma stop_separator y line b r : b_first b = false -> stop (separator y line b ++ r).
Proof. intros E. unfold separator. rewrite E. apply stop_comma. Qed.
Lemma Toks_key k r ts : good_key k -> Toks r ts -> Toks (opt_key k ++ r) (key_tokens k ++ ts).
Proof.
  intros G H. destruct k as [k|]; [|done]. destruct G as (u & G). cbn [opt_key key_tokens app]. unfold key_text, plain_of. rewrite G. cbn [default].
  rewrite <- !app_assoc. apply Toks_str; [done|]. apply (Toks_punct (chr 58) KColon); [apply (bool_decide_unpack _); by vm_compute|]. apply Toks_white; [by left|done].
Qed.

Lemma does_scalar y k v j : fair y -> good_key k ->
  (forall r ts, stop r -> Toks r ts -> Toks (value_of v ++ r) (value_tokens j ++ ts)) ->
  does y [add k v] (fun f => comma_if f ++ key_tokens k ++ value_tokens j).
Proof.
  intros F G V b. destruct k as [k|]; cbn [add make fold_left step].
  - exists (separator y true b ++ indentation y (b_level b) ++ key_text k ++ value_of v). split; [done|]. split.
    + intros r ts Hr H. rewrite <- !app_assoc. apply Toks_separator; [done|]. apply Toks_whites; [apply white_indent, F|].
      apply (Toks_key (Some k)); [done|]. by apply V.
    + intros E r _. rewrite <- app_assoc. by apply stop_separator.
  - exists (separator y false b ++ value_of v). split; [done|]. split.
    + intros r ts Hr H. rewrite <- !app_assoc. apply Toks_separator; [done|]. by apply V.
    + intros E r _. rewrite <- app_assoc. by apply stop_separator.
Qed.

(** Lists of calls for several values *)
Definition joined_if (first : bool) (l : list (list token)) : list token := if first then joined [comma] l else concat (map (app [comma]) l).
Lemma does_nil y : does y [] (fun f => joined_if f []).
Proof.
  intros b. exists []. destruct b as [f v n]. cbn [make fold_left b_first b_value b_level]. rewrite app_nil_r. split; [done|]. split; [|done].
  intros r ts Hr H. by destruct f.
Qed.
Lemma does_cons y cs cs' x l : cs <> [] -> does y cs (fun f => comma_if f ++ x) -> does y cs' (fun f => joined_if f l) -> does y (cs ++ cs') (fun f => joined_if f (x :: l)).
Proof.
  intros N A B b. destruct (A b) as (t & E & T & S). destruct (B (make y cs b)) as (t' & E' & T' & S'). rewrite E in *. cbn [b_first b_value b_level] in *.
  destruct cs as [|c cs]; [done|]. cbn [b_first b_value b_level] in *.
  exists (t ++ t'). split.
  - rewrite make_app, E, E'. cbn [app]. rewrite app_assoc. f_equal. by destruct cs'.
  - split.
    + intros r ts Hr H. rewrite <- app_assoc. replace (joined_if (b_first b) (x :: l) ++ ts) with ((comma_if (b_first b) ++ x) ++ joined_if false l ++ ts).
      2: { unfold joined_if, joined, comma_if. destruct (b_first b); cbn [map concat app]; by rewrite <- ?app_assoc. }
      apply T; [by apply S'|by apply T'].
    + intros F r Hr. rewrite <- app_assoc. apply S; [done|]. by apply S'.
Qed.
Lemma does_brackets y (c c' : option str -> call) o e o' e' k cs l :
  fair y -> good_key k ->
  (forall b, step y b (c k) = Builder true (b_value b ++ separator y true b ++ indentation y (b_level b) ++ opt_key k ++ [o] ++ y_line y) (b_level b + 1)) ->
  (forall b, step y b (c' k) = Builder false (b_value b ++ y_line y ++ indentation y (b_level b - 1) ++ [e]) (b_level b - 1)) ->
  (o, o') ∈ [(chr 91, KBracketOpen); (chr 123, KCurlyOpen)] -> (e, e') ∈ [(chr 93, KBracketClose); (chr 125, KCurlyClose)] ->
  does y cs (fun f => joined_if f l) ->
  does y (c k :: cs ++ [c' k]) (fun f => comma_if f ++ key_tokens k ++ (o', [o]) :: joined [comma] l ++ [(e', [e])]).
Proof.
  intros F G So Se Io Ie D b. destruct (D (step y b (c k))) as (t & E & T & S). rewrite So in *. cbn [b_first b_value b_level joined_if] in *.
  exists (separator y true b ++ indentation y (b_level b) ++ opt_key k ++ [o] ++ y_line y ++ t ++ y_line y ++ indentation y (b_level b) ++ [e]). split.
  - change (make y (c k :: cs ++ [c' k]) b) with (make y (cs ++ [c' k]) (step y b (c k))). rewrite make_app, So, E. cbn [make fold_left]. rewrite Se.
    cbn [b_value b_level]. replace (b_level b + 1 - 1)%Z with (b_level b) by lia. f_equal. by rewrite <- !app_assoc.
  - assert (Pe : stop ([e]) /\ forall r ts, Toks r ts -> Toks (e :: r) ((e', [e]) :: ts)).
    { repeat (apply elem_of_cons in Ie as [[= -> ->]|Ie]); [..|inversion Ie]; (split; [apply stop_cons; by vm_compute|]);
        intros r ts H; (apply Toks_punct; [apply (bool_decide_unpack _); by vm_compute|done]). }
    assert (Po : forall r ts, Toks r ts -> Toks (o :: r) ((o', [o]) :: ts)).
    { repeat (apply elem_of_cons in Io as [[= -> ->]|Io]); [..|inversion Io]; intros r ts H; (apply Toks_punct; [apply (bool_decide_unpack _); by vm_compute|done]). }
    destruct Pe as [Pe Pe']. split.
    + intros r ts Hr H. rewrite <- !app_assoc. apply Toks_separator; [done|]. apply Toks_whites; [apply white_indent, F|]. apply Toks_key; [done|].
      cbn [app]. apply Po. apply Toks_whites; [apply F|]. rewrite <- app_assoc. apply T.
      * apply stop_white; [apply F|]. apply stop_white; [apply white_indent, F|]. destruct Pe as (c0 & r0 & [= <- <-] & ? & ?). by apply stop_cons.
      * apply Toks_whites; [apply F|]. apply Toks_whites; [apply white_indent, F|]. cbn [app]. by apply Pe'.
    + intros Ef r Hr. rewrite <- app_assoc. by apply stop_separator.
Qed.

Lemma escaped_arr l : escaped (JArr l) -> Forall escaped l.
Proof. cbn [escaped]. induction l as [|x l IH]; [constructor|]. intros [A B]. constructor; auto. Qed.
Lemma escaped_obj l : escaped (JObj l) -> Forall (fun p => is_Some (unescape (fst p)) /\ escaped (snd p)) l.
Proof. cbn [escaped]. induction l as [|(k, x) l IH]; [constructor|]. intros [A B]. constructor; auto. Qed.
Lemma does_all y : fair y ->
  (forall k v cs, adds k v cs -> good_key k -> escaped v -> cs <> [] /\ does y cs (fun f => comma_if f ++ key_tokens k ++ value_tokens v)) /\
  (forall l cs, adds_elements l cs -> Forall escaped l -> does y cs (fun f => joined_if f (map value_tokens l))) /\
  (forall l cs, adds_members l cs -> Forall (fun p => is_Some (unescape (fst p)) /\ escaped (snd p)) l ->
     does y cs (fun f => joined_if f (map (fun p => (KString, plain_of (fst p)) :: (KColon, $":") :: value_tokens (snd p)) l))).
Proof.
  intros F. apply adds_all.
  - intros k b G _. split; [done|]. apply does_scalar; [done|done|]. intros r ts Hr H. cbn [value_of value_tokens app].
    destruct b; cbn [bool_text]; [apply (Toks_word ($"true"))|apply (Toks_word ($"false"))]; auto; apply (bool_decide_unpack _); by vm_compute.
  - intros k z G _. split; [done|]. apply does_scalar; [done|done|]. intros r ts Hr H. apply Toks_num; [apply print_int_number|done|done].
  - intros k s G (u & E). split; [done|]. apply does_scalar; [done|done|]. intros r ts Hr H. cbn [value_of value_tokens app]. unfold plain_of. rewrite E. cbn [default].
    rewrite <- app_assoc. change ((quote ++ ?x) ++ r) with (quote ++ (x ++ r)). rewrite <- app_assoc. by apply Toks_str.
  - intros k l cs _ IH G E. split; [done|]. apply (does_brackets y BeginArray (fun _ => EndArray) (chr 91) (chr 93)); try done.
    + by left.
    + by left.
    + apply IH. by apply escaped_arr.
  - intros k l cs _ IH G E. split; [done|]. apply (does_brackets y BeginObject (fun _ => EndObject) (chr 123) (chr 125)); try done.
    + right. by left.
    + right. by left.
    + apply IH. by apply escaped_obj.
  - intros _. apply does_nil.
  - intros v l cs cs' _ IH _ IH' Ha. inversion Ha; subst. destruct (IH I) as [N D]; [done|]. cbn [map]. apply does_cons; [done|exact D|by apply IH'].
  - intros _. apply does_nil.
  - intros k v l cs cs' _ IH _ IH' Ha. inversion Ha as [|? ? [H1 H2] H3]; subst. destruct (IH H1 H2) as [N D]. cbn [map fst snd]. apply does_cons; [done|exact D|by apply IH'].
Qed.

Lemma tokens_read text l : Toks text (value_tokens (JObj l)) -> reads text (as_read (JObj l)).
Proof.
  intros h. apply Toks_tokens in h as [n0 h]. destruct (object_ok l) as [n1 ha]; [apply Forall_forall; intros; apply all_Pv|].
  exists (n0 + n1)%nat. intros n hn. unfold parse. rewrite h by lia. cbn [rbind].
  destruct (value_tokens (JObj l)) as [|t0 tl] eqn:E; [done|]. pose proof (ha n ltac:(lia) []) as ha'.
  rewrite app_nil_r in ha'. specialize (ha' t0 tl eq_refl). assert (Et : fst t0 = KCurlyOpen) by (cbn [value_tokens] in E; by injection E as <- _).
  rewrite Et, ha'. reflexivity.
Qed.

(** What getString puts around *)
Definition framed (y : style) : Prop := exists a b c, y_front y = chr 123 :: a /\ y_back y = b ++ chr 125 :: c /\ white a /\ white b /\ white c.
Lemma Toks_frame y text toks r ts : framed y -> (forall r ts, stop r -> Toks r ts -> Toks (text ++ r) (toks ++ ts)) -> Toks r ts ->
  Toks ((y_front y ++ text ++ y_back y) ++ r) ((KCurlyOpen, $"{") :: (toks ++ [(KCurlyClose, $"}")]) ++ ts).
Proof.
  intros (a & b & c & -> & -> & A & B & C) T H. rewrite <- !app_assoc. cbn [app]. apply Toks_punct; [apply (bool_decide_unpack _); by vm_compute|].
  apply Toks_whites; [done|]. apply T.
  - apply stop_white; [done|]. apply stop_cons; by vm_compute.
  - apply Toks_whites; [done|]. cbn [app]. apply Toks_punct; [apply (bool_decide_unpack _); by vm_compute|]. by apply Toks_whites.
Qed.
Lemma styles_fine : fair compact /\ fair styled /\ framed compact /\ framed styled.
Proof.
  assert (W : forall w, bool_decide (white w) = true -> white w) by (intros w; apply bool_decide_eq_true).
  split; [split; by apply W|]. split; [split; by apply W|]. split.
  - exists [chr 32], [chr 32], []. repeat split; by apply W.
  - exists [chr 10], [chr 10], [chr 10]. repeat split; by apply W.
Qed.
Lemma built_tokens y l cs r ts : fair y -> framed y -> adds_members l cs -> escaped (JObj l) -> Toks r ts ->
  Toks (get_string y (make y cs new_builder) ++ r) (value_tokens (JObj l) ++ ts).
Proof.
  intros F Fr A E H. destruct (does_all y F) as (_ & _ & D). destruct (D l cs A (escaped_obj l E) new_builder) as (t & M & T & _).
  rewrite M. unfold get_string. cbn [b_value new_builder app]. cbn [b_first new_builder joined_if] in T. cbn [value_tokens app]. apply Toks_frame; [done|exact T|done].
Qed.

Lemma unchanged_escaped v : unchanged v -> escaped v /\ as_read v = v.
Proof.
  induction v as [|b|t|s|l IH|l IH] using json_ind'; cbn [unchanged escaped as_read]; auto; try done.
  - intros h%unescape_plain. unfold plain_of. rewrite h. split; [by eexists | done].
  - intros h. enough (hh : (fix all l := match l with [] => True | x :: r => escaped x /\ all r end) l /\ map as_read l = l).
    { destruct hh as [? ->]. auto. }
    induction IH as [|x l hx hl IHl]; [done|]. destruct h as [h1 h2]. destruct (hx h1) as [? E], (IHl h2) as [? E'].
    cbn [map]. rewrite E, E'. auto.
  - intros h. enough (hh : (fix all l := match l with [] => True | (k, x) :: r => (is_Some (unescape k) /\ escaped x) /\ all r end) l /\
                          map (fun p => (plain_of (fst p), as_read (snd p))) l = l).
    { destruct hh as [? ->]. auto. }
    induction IH as [|[k x] l hx hl IHl]; [done|]. destruct h as [[hk h1] h2]. destruct (hx h1) as [? E], (IHl h2) as [? E'].
    cbn [map fst snd]. cbn [snd] in E. apply unescape_plain in hk. unfold plain_of at 1. rewrite hk. cbn [default]. rewrite E, E'.
    repeat split; eauto.
Qed.

Lemma joined_snoc {A} (f : A -> list token) l x : joined [comma] (map f (l ++ [x])) = joined [comma] (map f l) ++ comma_if (bool_decide (l = [])) ++ f x.
Proof.
  destruct l as [|y l]; [cbn [app map joined concat comma_if]; rewrite bool_decide_eq_true_2 by done; by rewrite app_nil_r|].
  rewrite bool_decide_eq_false_2 by done. cbn [app map joined]. rewrite !map_app, concat_app. cbn [map concat comma_if]. by rewrite <- !app_assoc, app_nil_r.
Qed.
