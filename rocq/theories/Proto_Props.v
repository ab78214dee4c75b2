(** Properties of prototypes (generic types): C41. *)
From Verif Require Import Base Text_Model Tok_Model Tok_Spec Parse_Model Proto_Model Proto_Spec Proto_Proofs.

(** ** C41: names *)
(** The name of a type is its written form: the types the constraints stand for, with commas, in angle brackets. *)
Theorem C41_name_is_written_form n l :
  (forall c, c ∈ l -> c_run c <> []) -> run_name n l = written n (map c_run l) /\ design_name n l = written n (map c_design l).
Proof.
  intros H. rewrite run_name_written, design_name_written. split; [|done]. f_equal. apply map_ext_in. intros c Hc%elem_of_list_In.
  unfold str_eqb. by rewrite (bool_decide_eq_false_2 _ (H c Hc)).
Qed.
Print Assumptions C41_name_is_written_form.
(** Two type names are equal only if the type and all the arguments are, also when arguments are written
    types with arguments themselves. *)
Theorem C41_names_injective n1 n2 l1 l2 args1 args2 :
  plain n1 -> plain n2 ->
  Forall2 (fun c t => well_formed t /\ c_run c = ty_text t) l1 args1 ->
  Forall2 (fun c t => well_formed t /\ c_run c = ty_text t) l2 args2 ->
  run_name n1 l1 = run_name n2 l2 -> n1 = n2 /\ map c_run l1 = map c_run l2.
Proof. apply names_injective. Qed.
Print Assumptions C41_names_injective.
Lemma plain_dec s : bool_decide (s <> []) && forallb (fun c => negb (bool_decide (c = chr 60) || bool_decide (c = chr 62) || bool_decide (c = chr 44))) s = true -> plain s.
Proof.
  intros [H1 H2]%andb_true_iff. apply bool_decide_eq_true in H1. split; [done|]. intros c Hc. rewrite forallb_forall in H2.
  apply elem_of_list_In in Hc. apply H2, negb_true_iff in Hc. apply orb_false_iff in Hc as [Hc H3]. apply orb_false_iff in Hc as [H4 H5].
  by apply bool_decide_eq_false in H3, H4, H5.
Qed.
Example C41_names_ex :
  let l := [Con 0 ($"K") ($"int") []; Con 1 ($"V") ($"List<string>") []] in
  plain ($"Map") /\ Forall2 (fun c t => well_formed t /\ c_run c = ty_text t) l [Ty ($"int") []; Ty ($"List") [Ty ($"string") []]] /\
  run_name ($"Map") l = $"Map<int,List<string>>".
Proof.
  cbv zeta. split; [by apply plain_dec|]. split; [|by vm_compute].
  constructor; [split; [|by vm_compute]|constructor; [split; [|by vm_compute]|constructor]].
  - constructor; [by apply plain_dec|]. intros a Ha. by apply elem_of_nil in Ha.
  - constructor; [by apply plain_dec|]. intros a Ha. apply elem_of_list_singleton in Ha as ->.
    constructor; [by apply plain_dec|]. intros a Ha. by apply elem_of_nil in Ha.
Qed.
(** An argument that has not been given counts as [Object]. *)
Theorem C41_missing_type_is_object n l1 c l2 :
  c_run c = [] -> run_name n (l1 ++ c :: l2) = run_name n (l1 ++ Con (c_index c) (c_design c) ($"Object") (c_bound c) :: l2).
Proof.
  intros H. rewrite !run_name_written. f_equal. rewrite !map_app. cbn [map]. f_equal. f_equal. by rewrite H.
Qed.
Print Assumptions C41_missing_type_is_object.

(** ** C41: reading a written type back *)
Lemma numbered_lookup f xs : forall b i c, numbered f b xs !! i = Some c -> c_index c = (b + N.of_nat i)%N /\ c_design c = f (c_run c).
Proof.
  induction xs as [|x xs IH]; intros b i c Hi; [done|]. cbn [numbered] in Hi. destruct i as [|i]; cbn in Hi.
  - injection Hi as <-. cbn. split; [lia|done].
  - destruct (IH _ _ _ Hi) as [H1 H2]. split; [rewrite H1; lia|done].
Qed.
(** The text of a type with arguments is read as that type, with the arguments numbered from 0. *)
Theorem C41_read_back named n l w :
  identifier n -> l <> [] -> Forall (fun c => identifier (c_run c)) l -> blanks w ->
  exists ts d, tokenize (run_name n l ++ w) = Ok ts /\ parse_type named ts = Ok (d, [eof_token]) /\
    td_name d = n /\ map c_run (td_cons d) = map c_run l /\
    (forall i c, td_cons d !! i = Some c -> c_index c = N.of_nat i /\ (named = false -> c_design c = c_run c)).
Proof.
  intros Hn Hl Hf Hw. destruct l as [|c l]; [done|].
  destruct (C41_name_is_written_form n (c :: l)) as [-> _].
  { intros d Hd. rewrite Forall_forall in Hf. apply Hf in Hd as [[Hd _] _]. done. }
  cbn [map]. apply Forall_cons in Hf as [Hc Hf].
  destruct (read_written named n (c_run c) (map c_run l) w Hn Hc) as (ts & E1 & E2); [by apply Forall_map|done|].
  exists ts. eexists. split; [exact E1|]. split; [exact E2|]. cbn [td_name td_cons]. split; [done|].
  clear. generalize (c_run c :: map c_run l). intros xs.
  assert (forall f i, map c_run (numbered f i xs) = xs) as R.
  { intros f. induction xs as [|x xs IH]; intros i; [done|]. cbn [numbered map c_run]. by rewrite IH. }
  split; [apply R|].
  intros i c' Hi. destruct (numbered_lookup _ xs 0%N i c' Hi) as [H1 H2]. split; [rewrite H1; lia|]. intros ->. done.
Qed.
Print Assumptions C41_read_back.
Lemma ident_by w : bool_decide (w <> []) && forallb (fun c => negb (is_delim c) && negb (bool_decide (c = chr 0))) w = true ->
  classify_word w = (CNone, IDENTIFIER, w, false) -> identifier w.
Proof.
  intros H E. assert (is_word w) as Hw.
  { apply Tok_Proofs4.is_word_spec. apply andb_true_iff in H as [H1 H2]. split; [by apply bool_decide_eq_true in H1|].
    rewrite forallb_forall in H2. apply Forall_forall. intros c Hc%elem_of_list_In. apply H2, andb_true_iff in Hc as [Hc1 Hc2].
    apply negb_true_iff in Hc1, Hc2. by apply bool_decide_eq_false in Hc2. }
  split; [done|]. pose proof (Tok_Proofs4.classify_word_spelled w Hw) as Hs. by rewrite E in Hs.
Qed.
Example C41_read_back_ex :
  let l := [Con 0 ($"K") ($"int") []; Con 1 ($"V") ($"string") []] in
  identifier ($"Map") /\ Forall (fun c => identifier (c_run c)) l /\ blanks ($" ") /\ run_name ($"Map") l = $"Map<int,string>".
Proof.
  cbv zeta. split; [by apply ident_by|]. split; [constructor; [|constructor; [|constructor]]; by apply ident_by|].
  split; [split; [done|set_solver]|]. by vm_compute.
Qed.
(** Whatever stands between the brackets, the positions of what is read are 0, 1, 2 and so on. *)
Lemma run_loop_positions n : forall i ts l r, (length ts <= n)%nat -> run_loop i ts = Ok (l, r) ->
  forall k c, l !! k = Some c -> c_index c = (i + N.of_nat k)%N.
Proof.
  induction n as [|n IH]; intros i [|t ts] l r Hn; cbn [length run_loop] in *; try discriminate; [lia|].
  destruct (ttype_eqb (k_type t) COMPARE_GREATER); [by intros [= <- _]|].
  assert (forall us, (length us <= n)%nat -> forall q, run_loop (i + 1) us = Ok q -> l = Con i [] (k_text t) [] :: fst q ->
    forall k c, l !! k = Some c -> c_index c = (i + N.of_nat k)%N) as K.
  { intros us Hu [q r'] Hq -> [|k] c Hk; cbn in Hk; [injection Hk as <-; cbn; lia|]. rewrite (IH _ _ _ _ Hu Hq _ _ Hk). lia. }
  destruct ts as [|c ts2]; [discriminate|]. cbn [length] in Hn.
  destruct (ttype_eqb (k_type c) COLON).
  - destruct ts2 as [|m ts3]; [discriminate|]. cbn [length] in Hn.
    destruct (ttype_eqb (k_type m) COMMA); (destruct (run_loop (i + 1) _) as [q| | |] eqn:E; cbn [rbind]; try discriminate; intros [= <- _]; eapply K; [|exact E|done]; cbn [length]; lia).
  - destruct (ttype_eqb (k_type c) COMMA); (destruct (run_loop (i + 1) _) as [q| | |] eqn:E; cbn [rbind]; try discriminate; intros [= <- _]; eapply K; [|exact E|done]; cbn [length]; lia).
Qed.
Lemma design_loop_positions n : forall i ts l r, (length ts <= n)%nat -> design_loop i ts = Ok (l, r) ->
  forall k c, l !! k = Some c -> c_index c = (i + N.of_nat k)%N.
Proof.
  induction n as [|n IH]; intros i [|t ts] l r Hn; cbn [length design_loop] in *; try discriminate; [lia|].
  destruct (ttype_eqb (k_type t) COMPARE_GREATER); [by intros [= <- _]|].
  assert (forall b us, (length us <= n)%nat -> forall q, design_loop (i + 1) us = Ok q -> l = Con i (k_text t) (k_text t) b :: fst q ->
    forall k c, l !! k = Some c -> c_index c = (i + N.of_nat k)%N) as K.
  { intros b us Hu [q r'] Hq -> [|k] c Hk; cbn in Hk; [injection Hk as <-; cbn; lia|]. rewrite (IH _ _ _ _ Hu Hq _ _ Hk). lia. }
  destruct ts as [|c ts2]; [discriminate|]. cbn [length] in Hn.
  destruct (ttype_eqb (k_type c) COLON).
  - destruct ts2 as [|b ts3]; [discriminate|]. destruct (ttype_eqb (k_type b) IDENTIFIER); [|discriminate].
    destruct ts3 as [|m ts4]; [discriminate|]. cbn [length] in Hn.
    destruct (ttype_eqb (k_type m) COMMA); (destruct (design_loop (i + 1) _) as [q| | |] eqn:E; cbn [rbind]; try discriminate; intros [= <- _]; eapply K; [|exact E|done]; cbn [length]; lia).
  - destruct (ttype_eqb (k_type c) COMMA); (destruct (design_loop (i + 1) _) as [q| | |] eqn:E; cbn [rbind]; try discriminate; intros [= <- _]; eapply K; [|exact E|done]; cbn [length]; lia).
Qed.
Theorem C41_positions ts l r : collect_run ts = Ok (l, r) \/ collect_design ts = Ok (l, r) ->
  forall k c, l !! k = Some c -> c_index c = N.of_nat k.
Proof.
  unfold collect_run, collect_design. destruct ts as [|t ts]; [by intros []|].
  destruct (ttype_eqb (k_type t) COMPARE_LESS); [|by intros [[= <- _]|[= <- _]]].
  intros [H|H] k c Hk; [eapply run_loop_positions in H|eapply design_loop_positions in H]; try done; rewrite H; lia.
Qed.
Print Assumptions C41_positions.
Example C41_positions_ex : exists ts l r, tokenize ($"<int:5 a, b:> x; ") = Ok ts /\ collect_run ts = Ok (l, r) /\ map c_index l = [0; 1; 2]%N.
Proof. eexists _, _, _. split; [vm_compute; reflexivity|]. split; [vm_compute; reflexivity|]. done. Qed.
(** Types with arguments cannot be arguments: the tokens [>>] of a nested type are not understood. *)
Theorem C41_nested_argument_refuted :
  exists ts, tokenize ($"List<List<int>> x; ") = Ok ts /\ parse_type true ts = UB /\ parse_type false ts = UB.
Proof. eexists. split; [vm_compute; reflexivity|]. by vm_compute. Qed.
Print Assumptions C41_nested_argument_refuted.
(** A qualified type name as argument is read as three arguments, without any message. *)
Theorem C41_qualified_argument_refuted :
  exists ts d r, tokenize ($"List<System.String> x; ") = Ok ts /\ parse_type true ts = Ok (d, r) /\
    map c_run (td_cons d) = [$"System"; $"."; $"String"].
Proof. eexists _, _, _. split; [vm_compute; reflexivity|]. split; [vm_compute; reflexivity|]. done. Qed.
Print Assumptions C41_qualified_argument_refuted.
(** Arguments need no commas, and nothing between the brackets has to be a name. *)
Theorem C41_junk_accepted_refuted :
  exists ts d r, tokenize ($"Map<int 5 + string> x; ") = Ok ts /\ parse_type true ts = Ok (d, r) /\
    map c_run (td_cons d) = [$"int"; $"5"; $"+"; $"string"].
Proof. eexists _, _, _. split; [vm_compute; reflexivity|]. split; [vm_compute; reflexivity|]. done. Qed.
Print Assumptions C41_junk_accepted_refuted.

(** ** C41: substitution *)
(** A name is replaced by the type of the first constraint of that name; other names stay. *)
Theorem C41_first_constraint l x y : lookup_type l x = y <-> stands_for l x y.
Proof. split; [intros <-; apply lookup_stands|]. intros H. eapply stands_fun; [apply lookup_stands|done]. Qed.
Print Assumptions C41_first_constraint.
(** The constraints a prototype declares are joined with the given types position by position; a different
    number is an error. *)
Theorem C41_merge d r :
  (length d = length r /\ exists l, merge_constraints d r = Ok l /\ map c_design l = map c_design d /\ map c_index l = map c_index d /\
     map c_bound l = map c_bound d /\ map c_run l = map c_run r) \/
  (length d <> length r /\ merge_constraints d r = Throw "SyntaxError").
Proof.
  unfold merge_constraints. destruct (Nat.eqb_spec (length d) (length r)) as [E|E]; [left|by right]. split; [done|]. eexists. split; [done|].
  revert r E. induction d as [|x d IH]; intros [|y r] E; try done. injection E as E. cbn [merge_loop map c_design c_index c_bound c_run].
  destruct (IH r E) as (-> & -> & -> & ->). done.
Qed.
Print Assumptions C41_merge.
(** A method of an instantiated prototype: return type and parameter types are the declared ones with every
    name replaced, in the body exactly the identifiers are replaced, everything else stays. *)
Theorem C41_method l m s :
  (forall x, stands_for l x (s x)) -> g_done m = false ->
  (forall c, c ∈ td_cons (g_ret m) -> s (c_design c) <> []) ->
  (forall p c, p ∈ g_params m -> c ∈ snd p -> s (c_design c) <> []) ->
  td_combined (g_ret (init_method l m)) = written (s (td_name (g_ret m))) (map (fun c => s (c_design c)) (td_cons (g_ret m))) /\
  Forall2 (fun p q => fst (fst q) = fst (fst p) /\
             snd (fst q) = written (s (snd (fst p))) (map (fun c => s (c_design c)) (snd p)))
    (g_params m) (g_params (init_method l m)) /\
  Forall2 (fun t u => (k_type t = IDENTIFIER -> k_text u = s (k_text t)) /\ (k_type t <> IDENTIFIER -> k_text u = k_text t) /\
             k_type u = k_type t /\ k_cat u = k_cat t /\ k_line u = k_line t /\ k_col u = k_col t)
    (g_tokens m) (g_tokens (init_method l m)).
Proof.
  intros Hs Hd Hr Hp. assert (forall x, lookup_type l x = s x) as HL by (intros x; by apply C41_first_constraint).
  unfold init_method. rewrite Hd. cbn [g_ret td_combined g_params g_tokens]. split.
  - rewrite declared_written by (intros c Hc; rewrite HL; by apply Hr). rewrite HL. f_equal. apply map_ext. intros c. apply HL.
  - split.
    + apply Forall2_fmap_r, Forall_Forall2_diag, Forall_forall. intros [[n t] cs] Hin. unfold compose, init_param. cbv zeta beta iota. cbn [fst snd].
      rewrite declared_written by (intros c Hc; rewrite HL; by apply (Hp _ c Hin)).
      rewrite HL, (map_ext (fun c => lookup_type l (c_design c)) (fun c => s (c_design c))) by (intros c; apply HL).
      unfold str_eqb. case_bool_decide as E; cbn [fst snd]; [|done]. split; [done|]. by rewrite <- E.
    + apply Forall2_fmap_r, Forall_Forall2_diag, Forall_forall. intros t _. unfold compose, init_token. cbv zeta beta.
      destruct (ttype_eqb (k_type t) IDENTIFIER) eqn:E.
      * assert (k_type t = IDENTIFIER) as Et.
        { unfold ttype_eqb in E. apply N.eqb_eq in E. destruct (k_type t); done. }
        rewrite HL. unfold str_eqb. case_bool_decide as E2.
        -- split; [by rewrite E2|]. done.
        -- cbn. repeat split; done.
      * split; [intros Ht; rewrite Ht in E; done|]. done.
Qed.
Print Assumptions C41_method.
Example C41_method_ex :
  let l := [Con 0 ($"K") ($"int") []; Con 1 ($"V") ($"string") []] in
  let m := GMethod (TDecl ($"Map") [] [Con 0 ($"V") ($"V") []; Con 1 ($"K") ($"K") []])
             [($"key", $"K", []); ($"n", $"float", [])] [Token CNone IDENTIFIER ($"V") 1 1 false] false in
  (forall x, stands_for l x (lookup_type l x)) /\ td_combined (g_ret (init_method l m)) = $"Map<string,int>" /\
  g_params (init_method l m) = [($"key", $"int", []); ($"n", $"float", [])].
Proof. cbv zeta. split; [intros x; apply lookup_stands|]. by vm_compute. Qed.
(** Initialising a method again changes nothing, whatever the constraints. *)
Theorem C41_once l l' m : init_method l' (init_method l m) = init_method l m.
Proof. unfold init_method. destruct (g_done m) eqn:E; [by rewrite E|done]. Qed.
Print Assumptions C41_once.
(** A member whose type has no arguments. *)
Theorem C41_member l x y : stands_for l x y -> init_member l (x, []) = (y, []).
Proof. intros H%C41_first_constraint. unfold init_member. cbn [snd fst]. by rewrite H. Qed.
Print Assumptions C41_member.
(** A member whose type's arguments are all placeholders gets the types they stand for. *)
Theorem C41_member_arguments l n cs s :
  (forall x, stands_for l x (s x)) -> cs <> [] ->
  (forall c, c ∈ cs -> (exists d, d ∈ l /\ c_design d = c_design c) /\ s (c_design c) <> []) ->
  exists cs', init_member l (n, cs) = (n, cs') /\ map c_run cs' = map (fun c => s (c_design c)) cs.
Proof.
  intros Hs Hn Hc. destruct cs as [|c0 cs0] eqn:E; [done|]. rewrite <- E in *. exists (runtime_constraints cs l).
  split; [rewrite E; done|]. unfold runtime_constraints. rewrite map_map. apply map_ext_in. intros c Hin%elem_of_list_In.
  destruct (Hc c Hin) as [(d & Hd1 & Hd2) Hne]. 
  assert (c_run (lookup_constraint l (c_design c)) = s (c_design c)) as El.
  { rewrite <- (proj2 (C41_first_constraint l (c_design c) (s (c_design c))) (Hs _)). clear -Hd1 Hd2.
    induction l as [|e l IH]; [by apply elem_of_nil in Hd1|]. cbn [lookup_constraint lookup_type]. unfold str_eqb. case_bool_decide; [done|].
    apply IH. apply elem_of_cons in Hd1 as [->|Hd1]; done. }
  unfold has_run. rewrite El. unfold str_eqb. by rewrite (bool_decide_eq_false_2 _ Hne).
Qed.
Print Assumptions C41_member_arguments.
(** In [object Foo<T> { Map<string, T> m; }] the argument [string] of the member becomes [Object]. *)
Theorem C41_concrete_argument_refuted :
  let foo := [Con 0 ($"T") ($"int") []] in
  let m := ($"Map", [Con 0 ($"string") ($"string") []; Con 1 ($"T") ($"T") []]) in
  map c_run (snd (init_member foo m)) = [$"Object"; $"int"].
Proof. by vm_compute. Qed.
Print Assumptions C41_concrete_argument_refuted.
(** In [object Foo<A, B> { List<B> l; }] the member's type is rejected, because the argument keeps the position it
    has in [Foo]; only a type [List<..>] that is known already hides this. *)
Theorem C41_argument_position_refuted :
  let foo := [Con 0 ($"A") ($"int") []; Con 1 ($"B") ($"string") []] in
  let list := [Con 0 ($"T") ($"T") []] in
  let m := init_member foo ($"List", [Con 0 ($"B") ($"B") []]) in
  member_type (fun _ => false) list (fst m) (snd m) = Throw "TypeMismatch" /\
  member_type (fun n => str_eqb n ($"List<string>")) list (fst m) (snd m) = Ok ($"List<string>").
Proof. by vm_compute. Qed.
Print Assumptions C41_argument_position_refuted.
(** Missing arguments at the end are filled with [Object], in the prototype's order. *)
Theorem C41_fill this other :
  (length other <= length this)%nat ->
  map c_run (raw_constraints this other) = map c_run other ++ repeat ($"Object") (length this - length other) /\
  map c_design (raw_constraints this other) = map c_design other ++ drop (length other) (map c_design this) /\
  map c_index (raw_constraints this other) = map c_index other ++ drop (length other) (map c_index this).
Proof.
  unfold raw_constraints. rewrite !map_app. intros H.
  assert (map c_run (raw_rest this other) = repeat ($"Object") (length this - length other) /\
    map c_design (raw_rest this other) = drop (length other) (map c_design this) /\
    map c_index (raw_rest this other) = drop (length other) (map c_index this)) as (-> & -> & ->); [|done].
  revert other H. induction this as [|c this IH]; intros [|o other] H; cbn [length] in *; [done|lia| |].
  - destruct (IH []) as (E1 & E2 & E3); [cbn; lia|]. cbn [raw_rest map c_run c_design c_index length Nat.sub repeat drop] in *.
    rewrite Nat.sub_0_r in E1. rewrite E1, E2, E3, !drop_0. done.
  - cbn [raw_rest map Nat.sub drop]. apply IH. lia.
Qed.
Print Assumptions C41_fill.
(** Instantiating a prototype demands as many arguments as it has placeholders, in the same positions, and nothing else. *)
Theorem C41_instantiate proto args :
  (map c_index proto = map c_index args /\ is_ok (instantiate proto args) = true) \/
  (map c_index proto <> map c_index args /\ instantiate proto args = Throw "TypeMismatch").
Proof.
  unfold instantiate.
  assert (cons_eqb proto args = bool_decide (map c_index proto = map c_index args)) as ->.
  { unfold cons_eqb. destruct (Nat.eqb_spec (length proto) (length args)) as [E|E].
    - revert args E. induction proto as [|x proto IH]; intros [|y args] E; try done. injection E as E. cbn [cons_eqb_loop map].
      unfold con_eqb, str_eqb. rewrite (bool_decide_eq_true_2 (c_design x = c_design x)) by done. rewrite andb_true_r.
      destruct (N.eqb_spec (c_index x) (c_index y)) as [E1|E1].
      + rewrite IH by done. repeat case_bool_decide; congruence.
      + rewrite bool_decide_eq_false_2; [done|]. congruence.
    - rewrite bool_decide_eq_false_2; [done|]. intros H. apply E. by rewrite <- (map_length c_index proto), H, map_length. }
  case_bool_decide as E; [left|by right]. split; [done|]. destruct (C41_merge proto args) as [(_ & l & -> & _)|[Hne _]]; [done|].
  exfalso. apply Hne. by rewrite <- (map_length c_index proto), E, map_length.
Qed.
Print Assumptions C41_instantiate.
