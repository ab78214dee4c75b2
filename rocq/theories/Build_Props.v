(** The JSON builders: theorems of property C74. *)
From Verif Require Import Base Base_Proofs Text_Model Json_Model Json_Spec Json_Proofs Json_Props Build_Model Build_Spec Build_Proofs.

(** ** What is built is read back *)
(** The text of a document that was built call by call is read by the library as this document, for every builder. Numbers
    come back as strings and escaped strings without their backslashes, as always with this reader (C63). *)
Theorem C74_read_back y l cs : y ∈ [compact; styled] -> adds_members l cs -> escaped (JObj l) ->
  reads (get_string y (make y cs new_builder)) (as_read (JObj l)).
Proof.
  intros Y A E. destruct styles_fine as (F1 & F2 & F3 & F4). apply tokens_read.
  rewrite <- (app_nil_r (get_string _ _)), <- (app_nil_r (value_tokens _)).
  repeat (apply elem_of_cons in Y as [->|Y]); [..|inversion Y]; apply built_tokens; auto using Toks_nil.
Qed.
(** Without numbers, quotes and backslashes the document itself comes back. *)
Theorem C74_round_trip_partial y l cs : y ∈ [compact; styled] -> adds_members l cs -> unchanged (JObj l) ->
  reads (get_string y (make y cs new_builder)) (JObj l).
Proof.
  intros Y A U. destruct (unchanged_escaped _ U) as [E R]. pose proof (C74_read_back y l cs Y A E) as H. by rewrite R in H.
Qed.
(** Every document without null and with whole numbers can be built: there are calls for it. *)
Fixpoint whole (v : json) : Prop :=
  match v with
  | JNull => False
  | JNum t => exists z, t = print_int z
  | JBool _ | JStr _ => True
  | JArr l => (fix all l := match l with [] => True | x :: r => whole x /\ all r end) l
  | JObj l => (fix all l := match l with [] => True | (_, x) :: r => whole x /\ all r end) l
  end.
Theorem C74_every_document l : whole (JObj l) -> exists cs, adds_members l cs.
Proof.
  assert (K : forall v, whole v -> forall k, exists cs, adds k v cs).
  { induction v as [|b|t|s|m IH|m IH] using json_ind'; cbn [whole].
    - done.
    - intros _ k. eexists. constructor.
    - intros (z & ->) k. eexists. constructor.
    - intros _ k. eexists. constructor.
    - intros H k. enough (C : exists cs, adds_elements m cs) by (destruct C as (cs & C); eexists; by constructor).
      induction IH as [|x m hx hm IHm]; [eexists; constructor|]. destruct H as [H1 H2]. destruct (hx H1 None) as (a & A), (IHm H2) as (b & B).
      eexists. by econstructor.
    - intros H k. enough (C : exists cs, adds_members m cs) by (destruct C as (cs & C); eexists; by constructor).
      induction IH as [|[n x] m hx hm IHm]; [eexists; constructor|]. destruct H as [H1 H2]. destruct (hx H1 (Some n)) as (a & A), (IHm H2) as (b & B).
      eexists. by econstructor. }
  intros H. destruct (K (JObj l) H None) as (cs & C). inversion C; subst. by eexists.
Qed.
Definition ex_doc : list (str * json) :=
  [($"name", JStr ($"x y")); ($"list", JArr [JBool false; JNum ($"-7"); JObj [($"a", JArr [])]; JStr []]); ($"on", JBool true)].
Definition ex_calls : list call :=
  [AddElement ($"name") (SString ($"x y")); BeginArray (Some ($"list")); AddValue (SBool false); AddValue (SInt (-7)); BeginObject None;
   BeginArray (Some ($"a")); EndArray; EndObject; AddValue (SString []); EndArray; AddElement ($"on") (SBool true)].
Lemma ex_adds : adds_members ex_doc ex_calls.
Proof.
  apply (members_more _ _ _ [_]); [apply (adds_string (Some _))|].
  apply (members_more _ _ _ (BeginArray (Some ($"list")) :: [AddValue (SBool false); AddValue (SInt (-7)); BeginObject None;
   BeginArray (Some ($"a")); EndArray; EndObject; AddValue (SString [])] ++ [EndArray])).
  - apply adds_array. apply (elements_more _ _ [_]); [apply (adds_bool None)|]. apply (elements_more _ _ [_]); [apply (adds_int None (-7))|].
    apply (elements_more _ _ (BeginObject None :: [BeginArray (Some ($"a")); EndArray] ++ [EndObject])).
    + apply adds_object. apply (members_more _ _ _ (BeginArray (Some ($"a")) :: [] ++ [EndArray])); [apply adds_array|]; constructor.
    + apply (elements_more _ _ [_]); [apply (adds_string None)|constructor].
  - apply (members_more _ _ _ [_]); [apply (adds_bool (Some _))|constructor].
Qed.
Example C74_ex : adds_members ex_doc ex_calls /\ escaped (JObj ex_doc) /\ whole (JObj ex_doc) /\
  get_string compact (make compact ex_calls new_builder) =
    $"{ " ++ quote ++ $"name" ++ quote ++ $": " ++ quote ++ $"x y" ++ quote ++ $", " ++ quote ++ $"list" ++ quote ++ $": [false, -7, {" ++
    quote ++ $"a" ++ quote ++ $": []}, " ++ quote ++ quote ++ $"], " ++ quote ++ $"on" ++ quote ++ $": true }".
Proof.
  split; [exact ex_adds|]. split; [cbn; repeat split; eexists; vm_compute; reflexivity|]. split; [|vm_compute; reflexivity].
  cbn. repeat split. exists (-7)%Z. vm_compute. reflexivity.
Qed.
Example C74_round_trip_ex : let l := [($"k", JArr [JBool false; JStr ($"v")])] in
  unchanged (JObj l) /\ adds_members l [BeginArray (Some ($"k")); AddValue (SBool false); AddValue (SString ($"v")); EndArray].
Proof.
  cbv zeta. split.
  - cbn. repeat split; apply (bool_decide_unpack _); by vm_compute.
  - apply (members_more _ _ _ (BeginArray (Some ($"k")) :: [AddValue (SBool false); AddValue (SString ($"v"))] ++ [EndArray])); [|constructor].
    apply adds_array. apply (elements_more _ _ [_]); [apply (adds_bool None)|]. apply (elements_more _ _ [_]); [apply (adds_string None)|constructor].
Qed.
Print Assumptions C74_read_back.
Print Assumptions C74_round_trip_partial.
Print Assumptions C74_every_document.

(** ** The functions of the namespace *)
(** AddObject puts a document that was built before into the one that is being built. *)
Theorem C74_nested l cs k l' cs' y' : adds_members l cs -> escaped (JObj l) -> is_Some (unescape k) -> y' ∈ [compact; styled] -> adds_members l' cs' -> escaped (JObj l') ->
  reads (get_string compact (make compact (cs ++ [AddObject (Some k) (get_string y' (make y' cs' new_builder))]) new_builder)) (as_read (JObj (l ++ [(k, JObj l')]))).
Proof.
  intros A E K Y A' E'. destruct styles_fine as (F1 & F2 & F3 & F4). apply tokens_read.
  set (inner := get_string y' (make y' cs' new_builder)).
  assert (T' : forall r ts, Toks r ts -> Toks (inner ++ r) (value_tokens (JObj l') ++ ts)).
  { intros r ts H. unfold inner. repeat (apply elem_of_cons in Y as [->|Y]); [..|inversion Y]; by apply built_tokens. }
  clearbody inner. destruct (does_all compact F1) as (_ & _ & D). destruct (D l cs A (escaped_obj l E) new_builder) as (t & M & T & _).
  cbn [b_first b_value b_level new_builder joined_if] in T, M. rewrite make_app, M. cbn [make fold_left step]. unfold get_string. cbn [b_value app].
  rewrite <- (app_nil_r (y_front compact ++ _)). rewrite <- (app_nil_r (value_tokens _)). cbn [value_tokens]. apply Toks_frame; [done| |apply Toks_nil].
  intros r ts Hr H. rewrite <- !app_assoc.
  assert (X : Toks (opt_key (Some k) ++ inner ++ r) (key_tokens (Some k) ++ value_tokens (JObj l') ++ ts)) by (apply Toks_key; [done|by apply T']).
  assert (L : l = [] <-> cs = []).
  { inversion A as [|k0 v0 l0 cs0 cs1 H0 H1]; subst; [done|]. split; [done|]. intros C. apply app_eq_nil in C as [C _]. subst cs0. inversion H0; subst; destruct k0; discriminate. }
  rewrite joined_snoc. rewrite <- !app_assoc. apply T.
  - destruct cs as [|c cs]; [apply stop_cons; by vm_compute|apply stop_comma].
  - replace (bool_decide (l = [])) with (b_first (Builder (match cs with [] => true | _ => false end) t 1)).
    + apply Toks_separator; [done|]. exact X.
    + cbn [b_first]. destruct cs as [|c cs]; [rewrite bool_decide_eq_true_2; [done|by apply L]|]. rewrite bool_decide_eq_false_2; [done|]. intros ->. by destruct L as [L _]; specialize (L eq_refl).
Qed.
Example C74_nested_ex : reads (get_string compact (make compact ([AddElement ($"a") (SInt 1)] ++ [AddObject (Some ($"b")) (get_string styled (make styled ex_calls new_builder))]) new_builder))
  (as_read (JObj ([($"a", JNum ($"1"))] ++ [($"b", JObj ex_doc)]))).
Proof.
  apply C74_nested.
  - apply (members_more _ _ _ [_]); [apply (adds_int (Some _) 1)|constructor].
  - cbn. repeat split. by eexists.
  - by eexists.
  - right. by left.
  - exact ex_adds.
  - apply C74_ex.
Qed.
Print Assumptions C74_nested.
(** Nothing starts a new document: what is built later is added to what was built before. *)
Theorem C74_no_reset_refuted : ~ (forall l cs l' cs' b, adds_members l cs -> adds_members l' cs' -> unchanged (JObj l) -> unchanged (JObj l') ->
  b = make compact cs new_builder -> reads (get_string compact (make compact cs' b)) (JObj l')).
Proof.
  intros H. set (l := [($"a", JBool true)]). set (cs := [AddElement ($"a") (SBool true)]).
  assert (A : adds_members l cs) by (apply (members_more _ _ _ [_]); [apply (adds_bool (Some _))|constructor]).
  assert (U : unchanged (JObj l)) by (cbn; repeat split; apply (bool_decide_unpack _); by vm_compute).
  specialize (H l cs l cs _ A A U U eq_refl).
  assert (R : reads (get_string compact (make compact cs (make compact cs new_builder))) (JObj (l ++ l))).
  { rewrite <- make_app. apply C74_round_trip_partial; [by left| |].
    - apply (members_more _ _ _ [_]); [apply (adds_bool (Some _))|exact A].
    - cbn. repeat split; apply (bool_decide_unpack _); by vm_compute. }
  pose proof (C63_one_reading _ _ _ H R) as E. discriminate E.
Qed.
Print Assumptions C74_no_reset_refuted.

(** ** What goes wrong *)
(** Texts are not escaped: a text with quotes can add members of its own, which nobody asked for. *)
Theorem C74_quote_refuted : exists s, reads (get_string compact (make compact [AddElement ($"user") (SString s)] new_builder))
  (JObj [($"user", JStr ($"x")); ($"admin", JBool true); ($"a", JStr ($"b"))]).
Proof.
  exists ($"x" ++ quote ++ $", " ++ quote ++ $"admin" ++ quote ++ $": true, " ++ quote ++ $"a" ++ quote ++ $": " ++ quote ++ $"b").
  assert (U : unchanged (JObj [($"user", JStr ($"x")); ($"admin", JBool true); ($"a", JStr ($"b"))])) by (cbn; repeat split; apply (bool_decide_unpack _); by vm_compute).
  match goal with |- reads ?t _ => replace t with (get_string compact (make compact [AddElement ($"user") (SString ($"x")); AddElement ($"admin") (SBool true); AddElement ($"a") (SString ($"b"))] new_builder)) by (vm_compute; reflexivity) end.
  apply C74_round_trip_partial; [by left| |exact U].
  apply (members_more _ _ _ [_]); [apply (adds_string (Some _))|]. apply (members_more _ _ _ [_]); [apply (adds_bool (Some _))|].
  apply (members_more _ _ _ [_]); [apply (adds_string (Some _))|constructor].
Qed.
Print Assumptions C74_quote_refuted.
(** Numbers come back as strings. *)
Theorem C74_number_refuted : ~ (forall l cs, adds_members l cs -> whole (JObj l) -> escaped (JObj l) -> reads (get_string compact (make compact cs new_builder)) (JObj l)).
Proof.
  intros H. set (l := [($"a", JNum (print_int 1))]). set (cs := [AddElement ($"a") (SInt 1)]).
  assert (A : adds_members l cs) by (apply (members_more _ _ _ [_]); [apply (adds_int (Some _))|constructor]).
  assert (E : escaped (JObj l)) by (cbn; repeat split; by eexists).
  assert (W : whole (JObj l)) by (split; [by exists 1%Z|exact I]).
  pose proof (C63_one_reading _ _ _ (H l cs A W E) (C74_read_back compact l cs ltac:(by left) A E)) as Q. discriminate Q.
Qed.
Print Assumptions C74_number_refuted.
(** An array cannot be a document: the brackets around the whole are always those of an object. *)
Theorem C74_array_refuted : ~ (forall l cs, adds None (JArr l) cs -> exists v, reads (get_string compact (make compact cs new_builder)) v).
Proof.
  intros H. destruct (H [] [BeginArray None; EndArray]) as (v & n0 & R).
  - apply (adds_array None [] []). constructor.
  - assert (T : Toks (get_string compact (make compact [BeginArray None; EndArray] new_builder)) [(KCurlyOpen, $"{"); (KBracketOpen, $"["); (KBracketClose, $"]"); (KCurlyClose, $"}")]).
    { change (get_string _ _) with ($"{ []" ++ $" }"). repeat (first [apply Toks_punct; [apply (bool_decide_unpack _); by vm_compute|]|apply Toks_white; [by left|]]). apply Toks_nil. }
    apply Toks_tokens in T as (n1 & T). specialize (R (20 + (n0 + n1))%nat ltac:(lia)). specialize (T (20 + (n0 + n1))%nat ltac:(lia)).
    unfold parse in R. rewrite T in R. cbn in R. discriminate R.
Qed.
Print Assumptions C74_array_refuted.
