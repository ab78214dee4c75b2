(** Property C68: what a text does when it runs. *)
From Coq Require Import Floats.SpecFloat.
From Verif Require Import Base Base_Proofs Text_Model Tok_Model TypeTable TypeSys_Model Value_Model Parse_Model Parse_Spec Parse_Brackets Parse_Sound Parse_Props Decl_Model Decl_Spec Stmt_Model Stmt_Spec Interp_Model Interp_Spec Interp_Eqs Interp_Proofs Interp_Mono Flow_Proofs Run_Model Run_Spec Run_Base Run_Static Run_Load Run_Env Run_Fwd Run_Back.

(** The objects that hold values. *)
Definition object (v : val) : obj :=
  match v with
  | VInt z => Obj ($"int") true false false 0 (AInt z)
  | VBool b => Obj ($"bool") true false false 0 (ABool b)
  | VText s => Obj ($"string") true false false 0 (AStr s)
  end.
Definition arguments (vs : list val) : list obj := map object vs.
(** The result of a call: without a value it is the object that was there before. *)
Definition result (d : obj) (r : option val) : obj := match r with Some v => object v | None => d end.
(** The state behind a call: only the output has changed. *)
Definition printed (s : st) (o : list str) : st :=
  St (s_frames s) (World (w_globals (s_world s)) (w_exn (s_world s)) (w_out (s_world s) ++ o) (w_next (s_world s))) FNormal.

Lemma object_of v : object v = obj_of v.
Proof. by destruct v. Qed.
Lemma arguments_of vs : arguments vs = map obj_of vs.
Proof. apply map_ext. exact object_of. Qed.
Lemma result_of d r : result d r = match r with Some v => obj_of v | None => d end.
Proof. destruct r; [apply object_of|done]. Qed.

(** ** Well typed texts are accepted *)
Theorem C68_accepted io ext inst text M : text_of text M -> well_typed M -> exists P, load_text io ext inst text = Ok P.
Proof. intros T W. destruct (load_text_ok io ext inst text M T W) as (ms & H & _). by eexists. Qed.
Print Assumptions C68_accepted.

Section Runs.
Context (io : fio) (ext : str -> list obj -> option extres) (inst : str -> str -> bool) (text : str) (M : program) (P : prog).
Context (T : text_of text M) (W : well_typed M) (HP : load_text io ext inst text = Ok P).

Lemma loaded : Forall2 (linked M) M (p_methods P).
Proof. destruct (load_text_ok io ext inst text M T W) as (ms & H & HL). rewrite HP in H. injection H as ->. exact HL. Qed.

Lemma run_forward f m vs r o d s : find_meth M f = Some m -> Forall2 has_type vs (map fst (me_params m)) -> s_flow s = FNormal ->
  Run_Spec.calls M f vs r o -> exists n, call P n f (arguments vs) d s = (Val (result d r), printed s o).
Proof.
  intros Hm Ht Hs Hc. pose proof loaded as L. destruct (fwd_all M P W L) as (_ & _ & FC & _ & FL & _).
  destruct (FC _ _ _ _ Hc m Hm Ht) as [Hr _].
  inversion Hc as [? ? m' k ? ? ? Hm' Hlen Hb Hk]; subst. assert (m' = m) as -> by congruence. clear Hm'.
  destruct (find_linked M (p_methods P) f m L Hm) as (q & G & Hf & Hlow).
  destruct (find_ok M W f m Hm) as (_ & ND & _ & _ & _). rewrite map_map in ND.
  destruct (bind_typed (me_params m) vs ND Ht) as [Hbind Hsame].
  assert (Fi : fits_env [vars (me_params m)] [zip (map snd (me_params m)) vs]) by (constructor; [exact Hsame|constructor]).
  destruct s as [fr w fl]. cbn [s_flow] in Hs. subst fl.
  destruct (FL _ _ _ _ _ Hb _ _ _ _ _ Hlow ltac:(done) _ w Fi ltac:(cbn [concat]; by rewrite app_nil_r)) as (scs' & Z & G'' & _ & _ & _ & _ & _ & _ & R).
  destruct (fwd P Leaky ltac:(done)) as (_ & _ & _ & _ & _ & _ & HLs & _). destruct (HLs _ _ _ _ R) as [_ [N HN]].
  assert (Hlen' : length (map obj_of vs) = length (me_params m)) by (rewrite map_length; exact Hlen).
  exists (S (S N)). rewrite arguments_of, call_S, Hlen', Hf.
  assert (HX : execute P (S N) (Method (ret_word (me_ret m)) (words (me_params m)) q) (map obj_of vs) d (St fr w FNormal) =
    (Val (if str_eqb (ret_word (me_ret m)) t_void then d else rv_of k), St fr (say w o) (flow_of (ending_of k)))).
  { rewrite execute_S. cbn [m_params m_body m_ret]. erewrite bind_val; [|exact (lift_ok _ _ _ Hbind)]. erewrite bind_val; [|reflexivity].
    erewrite bind_val; [|exact (HN N (le_n _) fr)]. erewrite bind_val; [|reflexivity]. reflexivity. }
  erewrite bind_val; [|exact HX].
  assert (Hv : result d r = if str_eqb (ret_word (me_ret m)) t_void then d else rv_of k).
  { rewrite result_of. destruct (me_ret m) as [t|] eqn:Hrt, r as [v|]; try done.
    destruct Hk as [->|[_ ?]]; [|done]. by destruct t. }
  rewrite Hv. destruct Hk as [->|[-> _]]; reflexivity.
Qed.
Lemma run_backward n f m vs d s : find_meth M f = Some m -> Forall2 has_type vs (map fst (me_params m)) -> s_flow s = FNormal ->
  good (fun a s' => exists r o, typed_end (me_ret m) r /\ a = result d r /\ Run_Spec.calls M f vs r o /\ s' = printed s o) (call P n f (arguments vs) d s).
Proof.
  intros Hm Ht Hs. rewrite arguments_of. destruct (back_all M P W loaded n) as (_ & _ & GC & _).
  eapply good_mono; [exact (GC f m vs d s Hm Ht Hs)|]. cbv beta. intros a s' (r & o & H1 & H2 & H3 & H4). exists r, o. by rewrite result_of.
Qed.
End Runs.

(** ** A call computes what the rules of the language say
    For every well typed text, every method and every arguments of its types: the rules derive the result [r] and the output
    [o] exactly if the interpreter, given enough steps, ends with this result and has printed this output. *)
Theorem C68_runs_as_the_rules_say io ext inst text M P f m vs r o s :
  text_of text M -> well_typed M -> load_text io ext inst text = Ok P ->
  find_meth M f = Some m -> Forall2 has_type vs (map fst (me_params m)) -> s_flow s = FNormal ->
  Run_Spec.calls M f vs r o <-> exists n, call P n f (arguments vs) anon s = (Val (result anon r), printed s o).
Proof.
  intros T W HP Hm Ht Hs. split; [by eapply run_forward|]. intros [n H].
  pose proof (run_backward io ext inst text M P T W HP n f m vs anon s Hm Ht Hs) as G. rewrite H in G. destruct G as (r' & o' & H1 & H2 & H3 & H4).
  assert (r' = r) as <-.
  { rewrite !result_of in H2. destruct r as [v|], r' as [v'|]; [f_equal; symmetry; by apply obj_of_inj|by destruct v|by destruct v'|done]. }
  assert (o' = o) as <-; [|done]. unfold printed in H4. injection H4 as H4. symmetry. by eapply app_inv_head.
Qed.
Print Assumptions C68_runs_as_the_rules_say.

(** Nothing else can happen: a run that ends has a result the rules derive; it never ends with an exception, an unknown name,
    a type error or any other error of the interpreter. It can only be stopped by an assertion that fails, by an overflow or a
    division by zero, or go on. *)
Theorem C68_nothing_else io ext inst text M P f m vs s n :
  text_of text M -> well_typed M -> load_text io ext inst text = Ok P ->
  find_meth M f = Some m -> Forall2 has_type vs (map fst (me_params m)) -> s_flow s = FNormal ->
  match call P n f (arguments vs) anon s with
  | (Val a, s') => exists r o, a = result anon r /\ s' = printed s o /\ Run_Spec.calls M f vs r o /\
                     match r, me_ret m with Some v, Some t => has_type v t | None, None => True | _, _ => False end
  | (Raise _, _) => False
  | (Crash e, _) => @Crash obj e = Crash "AssertionFailed"
  | (Undef, _) | (NoFuel, _) => True
  end.
Proof.
  intros T W HP Hm Ht Hs. pose proof (run_backward io ext inst text M P T W HP n f m vs anon s Hm Ht Hs) as G.
  destruct (call P n f (arguments vs) anon s) as [[a|?|?| |] s']; try done. destruct G as (r & o & H1 & H2 & H3 & H4). exists r, o.
  split; [done|]. split; [done|]. split; [done|]. by destruct r, (me_ret m).
Qed.
Print Assumptions C68_nothing_else.

(** The rules are deterministic, and a run that is stopped has no result by the rules. *)
Theorem C68_deterministic text M f m vs r o r' o' :
  text_of text M -> well_typed M -> find_meth M f = Some m -> Forall2 has_type vs (map fst (me_params m)) ->
  Run_Spec.calls M f vs r o -> Run_Spec.calls M f vs r' o' -> r' = r /\ o' = o.
Proof.
  intros T W Hm Ht H1 H2. destruct (C68_accepted ex_fio (fun _ _ => None) (fun _ _ => false) text M T W) as [P HP].
  pose proof (C68_runs_as_the_rules_say _ _ _ _ _ P f m vs r o (start []) T W HP Hm Ht eq_refl) as [A _].
  pose proof (C68_runs_as_the_rules_say _ _ _ _ _ P f m vs r' o' (start []) T W HP Hm Ht eq_refl) as [B C].
  destruct (A H1) as [n Hn], (B H2) as [n' Hn'].
  assert (U : forall k k' s0 a s', k <= k' -> call P k f (arguments vs) anon s0 = (Val a, s') -> call P k' f (arguments vs) anon s0 = (Val a, s')).
  { intros k k' s0 a s' Hk Hc. eapply (leM_up (fun n => call P n f (arguments vs) anon)); [intros; apply mono_ok|exact Hk|exact Hc|done]. }
  apply (U n (n + n') _ _ _ ltac:(lia)) in Hn. apply (U n' (n + n') _ _ _ ltac:(lia)) in Hn'. rewrite Hn in Hn'. injection Hn' as Hr Ho.
  split; [|done]. rewrite !result_of in Hr. destruct r as [v|], r' as [v'|]; [f_equal; symmetry; by apply obj_of_inj|by destruct v|by destruct v'|done].
Qed.
Print Assumptions C68_deterministic.
Theorem C68_stopped io ext inst text M P f m vs s n :
  text_of text M -> well_typed M -> load_text io ext inst text = Ok P ->
  find_meth M f = Some m -> Forall2 has_type vs (map fst (me_params m)) -> s_flow s = FNormal ->
  match fst (call P n f (arguments vs) anon s) with Undef | Crash _ => forall r o, ~ Run_Spec.calls M f vs r o | _ => True end.
Proof.
  intros T W HP Hm Ht Hs. destruct (call P n f (arguments vs) anon s) as [a s'] eqn:Hc. cbn [fst].
  assert (H : a = Undef \/ (exists e, a = Crash e) -> forall r o, ~ Run_Spec.calls M f vs r o).
  { intros Ha r o Hr. apply (C68_runs_as_the_rules_say io ext inst text M P f m vs r o s T W HP Hm Ht Hs) in Hr as [n' Hn'].
    assert (U : forall k k' r0 s0 s', k <= k' -> r0 <> NoFuel -> call P k f (arguments vs) anon s0 = (r0, s') -> call P k' f (arguments vs) anon s0 = (r0, s')).
    { intros k k' r0 s0 s0' Hk HN HC. eapply (leM_up (fun n => call P n f (arguments vs) anon)); [intros; apply mono_ok|exact Hk|exact HC|exact HN]. }
    apply (U n (n + n')) in Hc; [|lia|by destruct Ha as [->|[e ->]]]. apply (U n' (n + n')) in Hn'; [|lia|done].
    rewrite Hn' in Hc. injection Hc as Hc _. destruct Ha as [->|[e ->]]; discriminate. }
  destruct a; try done; apply H; eauto.
Qed.
Print Assumptions C68_stopped.

(** ** Examples *)
(** A recursive method, and one that prints its result. *)
Definition C68_text : str :=
  $"int sum(int n) { if (n < 1) { return 0; } return n + sum(n - 1); } void main(int k) { print(sum(k)); } ".
Definition C68_program : program :=
  [Meth (Some TInt) ($"sum") [(TInt, $"n")]
     [YIf (XBin 2 COMPARE_LESS ($"<") (XName ($"n")) (XLit CONST_INTEGER ($"1"))) (YBlock [YReturn (Some (XLit CONST_INTEGER ($"0")))]) None;
      YReturn (Some (XBin 1 MATH_ADDITION ($"+") (XName ($"n"))
        (XCall ($"sum") [XBin 1 MATH_SUBTRACT ($"-") (XName ($"n")) (XLit CONST_INTEGER ($"1"))])))];
   Meth None ($"main") [(TInt, $"k")] [YPrint (XCall ($"sum") [XName ($"k")])]].
Definition C68_toks : list token := Eval vm_compute in match tokenize C68_text with Ok l => removelast l | _ => [] end.
Definition tk (n : nat) : token := nth n C68_toks eof_token.
Lemma one_name k t : k_type t = IDENTIFIER -> denotes true (Lvl k) Name [t] (XName (k_text t)).
Proof. intros H. apply (lift_up 0); [lia|]. apply d_infix, term_infix, d_name. exact H. Qed.
Lemma one_lit k t : k_type t ∈ const_types -> denotes true (Lvl k) Closed [t] (XLit (k_type t) (k_text t)).
Proof. intros H. apply (lift_up 0); [lia|]. apply d_infix, term_infix, d_lit. exact H. Qed.
Lemma one_type t : ident t -> Decl_Spec.type_of [t] (TDecl (k_text t) [] Modify).
Proof. intros H. apply (type_written [t] [k_text t] [] [] [] Modify); [by apply path_one|constructor|constructor]. Qed.
Lemma one_param t n : ident t -> ident n -> params_of [t; n] [Param (k_text n) (TDecl (k_text t) [] Modify) Modify AUnspecified None].
Proof.
  intros Ht Hn. apply params_given, params_one. apply (param_named [t] (TDecl (k_text t) [] Modify) n [] Modify [] AUnspecified [] None);
    [by apply one_type|done|apply word_absent|apply word_absent|apply default_absent|done].
Qed.
Lemma one_method t n po pt pn pc o b c : ident t -> ident n -> ident pt -> ident pn -> sym PARENTHESIS_OPEN ($"(") po -> sym PARENTHESIS_CLOSE ($")") pc ->
  sym BRACKET_CURLY_OPEN ($"{") o -> sym BRACKET_CURLY_CLOSE ($"}") c -> nested BRACKET_CURLY_OPEN BRACKET_CURLY_CLOSE b ->
  declares InSpace ([t; n; po; pt; pn; pc; o] ++ b ++ [c])
    (DMethod Private Static Stable (TDecl (k_text t) [] Modify) (k_text n) [Param (k_text pn) (TDecl (k_text pt) [] Modify) Modify AUnspecified None] Const Nothrow (Some b)).
Proof.
  intros. apply (d_method InSpace [] Private [] Static [] Stable [t] (TDecl (k_text t) [] Modify) n po [pt; pn] _ pc [] Const [] Nothrow (o :: b ++ [c]) (Some b));
    first [done|apply word_absent|by apply one_type|by apply one_param|by constructor].
Qed.
Ltac is_ident := split; [reflexivity|split; [discriminate|apply (bool_decide_unpack _); by vm_compute]].
Ltac kw := split; reflexivity.
Example C68_hypotheses : text_of C68_text C68_program /\ well_typed C68_program.
Proof.
  split; [|split].
  2: { apply (bool_decide_unpack _); by vm_compute. }
  2: { constructor; [|constructor; [|constructor]]; (split_and!; [by vm_compute|apply (bool_decide_unpack _); by vm_compute|
         apply (bool_decide_unpack _); by vm_compute|eexists; vm_compute; reflexivity|]).
       - done.
       - done. }
  destruct (raw_tokens C68_text) as [raw| | |] eqn:R; try (vm_compute in R; discriminate).
  assert (Hcond : denotes true (Lvl 3) Closed [tk 9; tk 10; tk 11] (XBin 2 COMPARE_LESS ($"<") (XName ($"n")) (XLit CONST_INTEGER ($"1")))).
  { apply d_level. apply (d_bin true 1 Name [tk 9] (tk 10) Closed [tk 11]); [by apply (one_name 2 (tk 9))|done|apply ty_in_spec; reflexivity|].
    apply (one_lit 1 (tk 11)), ty_in_spec; reflexivity. }
  assert (Harg : denotes true (Lvl 3) Closed [tk 23; tk 24; tk 25] (XBin 1 MATH_SUBTRACT ($"-") (XName ($"n")) (XLit CONST_INTEGER ($"1")))).
  { do 2 apply d_level. apply (d_bin true 0 Name [tk 23] (tk 24) Closed [tk 25]); [by apply (one_name 1 (tk 23))|done|apply ty_in_spec; reflexivity|].
    apply (one_lit 0 (tk 25)), ty_in_spec; reflexivity. }
  assert (Hsum : denotes true (Lvl 3) Closed [tk 19; tk 20; tk 21; tk 22; tk 23; tk 24; tk 25; tk 26]
    (XBin 1 MATH_ADDITION ($"+") (XName ($"n")) (XCall ($"sum") [XBin 1 MATH_SUBTRACT ($"-") (XName ($"n")) (XLit CONST_INTEGER ($"1"))]))).
  { do 2 apply d_level. apply (d_bin true 0 Name [tk 19] (tk 20) Closed [tk 21; tk 22; tk 23; tk 24; tk 25; tk 26]);
      [by apply (one_name 1 (tk 19))|done|apply ty_in_spec; reflexivity|].
    apply d_infix, term_infix, (d_call true (tk 21) (tk 22) [tk 23; tk 24; tk 25] (tk 26)); try reflexivity; [discriminate|]. eapply da_one. exact Harg. }
  assert (Hcall : denotes true (Lvl 3) Closed [tk 38; tk 39; tk 40; tk 41] (XCall ($"sum") [XName ($"k")])).
  { apply (lift_up 0); [lia|]. apply d_infix, term_infix, (d_call true (tk 38) (tk 39) [tk 40] (tk 41)); try reflexivity; [discriminate|].
    eapply da_one. by apply (one_name 3 (tk 40)). }
  exists C68_toks, (nth 45 (match tokenize C68_text with Ok l => l | _ => [] end) eof_token), raw.
  eexists [_; _]. split_and!; try (vm_compute; reflexivity).
  - exact R.
  - vm_compute in R. injection R as <-. intros t Ht [H1 H2].
    repeat (apply elem_of_cons in Ht as [->|Ht]; [discriminate H2|]). inversion Ht.
  - intros t s Ht H. repeat (apply elem_of_cons in Ht as [->|Ht]; [discriminate H|]). inversion Ht.
  - change C68_toks with (([tk 0; tk 1; tk 2; tk 3; tk 4; tk 5; tk 6] ++ firstn 21 (skipn 7 C68_toks) ++ [tk 28]) ++
      ([tk 29; tk 30; tk 31; tk 32; tk 33; tk 34; tk 35] ++ firstn 8 (skipn 36 C68_toks) ++ [tk 44]) ++ []).
    constructor; [|constructor; [|constructor]]; apply one_method; try is_ident; try kw.
    + change (firstn 21 (skipn 7 C68_toks)) with ([tk 7; tk 8; tk 9; tk 10; tk 11; tk 12] ++ tk 13 :: [tk 14; tk 15; tk 16] ++ tk 17 :: [tk 18; tk 19; tk 20; tk 21; tk 22; tk 23; tk 24; tk 25; tk 26; tk 27]).
      cbn [app]. do 6 (apply nested_other; [discriminate|discriminate|]).
      apply (nested_pair _ _ (tk 13) [tk 14; tk 15; tk 16] (tk 17)); [reflexivity|reflexivity| |].
      * do 3 (apply nested_other; [discriminate|discriminate|]). constructor.
      * do 10 (apply nested_other; [discriminate|discriminate|]). constructor.
    + change (firstn 8 (skipn 36 C68_toks)) with [tk 36; tk 37; tk 38; tk 39; tk 40; tk 41; tk 42; tk 43].
      do 8 (apply nested_other; [discriminate|discriminate|]). constructor.
  - constructor; [|constructor; [|constructor]].
    + eexists _, _, _, _, _, _. split; [reflexivity|]. split; [done|].
      change (firstn 21 (skipn 7 C68_toks)) with ((tk 7 :: [tk 8; tk 9; tk 10; tk 11; tk 12] ++ [tk 13; tk 14; tk 15; tk 16; tk 17]) ++
        (tk 18 :: [tk 19; tk 20; tk 21; tk 22; tk 23; tk 24; tk 25; tk 26] ++ [tk 27]) ++ []).
      apply (wl_full true OpenIf); [|discriminate|].
      * apply (w_if true (tk 7) [tk 8; tk 9; tk 10; tk 11; tk 12] [tk 9; tk 10; tk 11] _ Full);
          [kw|exists (tk 8), (tk 12); repeat split; reflexivity|by exists Closed|].
        apply (w_block true _ [tk 14; tk 15; tk 16]); [exists (tk 13), (tk 17); repeat split; reflexivity|discriminate|].
        apply (wl_full true Full [tk 14; tk 15; tk 16] _ []); [|discriminate|constructor].
        apply (w_return true (tk 14) [tk 15] (tk 16) (Some (XLit CONST_INTEGER ($"0")))); [kw| |reflexivity].
        exists Closed. apply (one_lit 3 (tk 15)), ty_in_spec; reflexivity.
      * apply (wl_full true Full); [|discriminate|constructor].
        apply (w_return true (tk 18) _ (tk 27) (Some _)); [kw|by exists Closed|reflexivity].
    + eexists _, _, _, _, _, _. split; [reflexivity|]. split; [done|].
      change (firstn 8 (skipn 36 C68_toks)) with ((tk 36 :: [tk 37; tk 38; tk 39; tk 40; tk 41; tk 42] ++ [tk 43]) ++ []).
      apply (wl_full true Full); [|discriminate|constructor].
      apply (w_print true (tk 36) _ [tk 38; tk 39; tk 40; tk 41]); [kw|exists (tk 37), (tk 42); repeat split; reflexivity|by exists Closed|reflexivity].
Qed.
(** Loading a text and calling one of its methods: how it ends, and the output. *)
Definition run_text (text f : str) (vs : list val) : option (out obj * list str) :=
  match load_text ex_fio (fun _ _ => None) (fun _ _ => false) text with
  | Ok P => let (a, s) := call P 200 f (arguments vs) anon (start []) in Some (a, w_out (s_world s))
  | _ => None
  end.
Example C68_run_ex : run_text C68_text ($"main") [VInt 4] = Some (Val anon, [$"10"]) /\
  run_text C68_text ($"sum") [VInt 9] = Some (Val (object (VInt 45)), []).
Proof. split; vm_compute; reflexivity. Qed.
(** What the rules say about them, by the theorem *)
Example C68_rules_ex : Run_Spec.calls C68_program ($"sum") [VInt 4] (Some (VInt 10)) [] /\ Run_Spec.calls C68_program ($"main") [VInt 4] None [$"10"].
Proof.
  destruct C68_hypotheses as [T W]. destruct (C68_accepted ex_fio (fun _ _ => None) (fun _ _ => false) _ _ T W) as [P HP].
  assert (R : forall f m vs r o s, find_meth C68_program f = Some m -> Forall2 has_type vs (map fst (me_params m)) -> s_flow s = FNormal ->
    match load_text ex_fio (fun _ _ => None) (fun _ _ => false) C68_text with
    | Ok P => call P 200 f (arguments vs) anon s = (Val (result anon r), printed s o) | _ => False end -> Run_Spec.calls C68_program f vs r o).
  { intros f m vs r o s Hm Ht Hs H. rewrite HP in H.
    eapply (C68_runs_as_the_rules_say _ _ _ _ _ _ _ _ _ _ _ _ T W HP Hm Ht Hs). by exists 200%nat. }
  clear HP. assert (F : fits 4) by (unfold fits; lia). split.
  - eapply (R _ _ _ _ _ (start [])); [reflexivity|constructor; [exact F|constructor]|reflexivity|vm_compute; reflexivity].
  - eapply (R _ _ _ _ _ (start [])); [reflexivity|constructor; [exact F|constructor]|reflexivity|vm_compute; reflexivity].
Qed.
(** A for loop that is left by return *)
Definition C68_find : meth := Meth (Some TInt) ($"find") [(TInt, $"n")]
  [YFor (Some (YDecl (NamedType ($"int") ($"i") None None) (Some (XLit CONST_INTEGER ($"0"))))) (Some (XBin 2 COMPARE_LESS ($"<") (XName ($"i")) (XName ($"n"))))
     (Some (YAssign (XAssign ($"i") ASSIGN (XBin 1 MATH_ADDITION ($"+") (XName ($"i")) (XLit CONST_INTEGER ($"1"))))))
     (YBlock [YIf (XBin 2 COMPARE_EQUAL ($"==") (XName ($"i")) (XLit CONST_INTEGER ($"3"))) (YBlock [YReturn (Some (XName ($"i")))]) None]);
   YReturn (Some (XLit CONST_INTEGER ($"0")))].
Example C68_for_return_ex : well_typed [C68_find] /\
  run_text ($"int find(int n) { for (int i = 0; i < n; i = i + 1) { if (i == 3) { return i; } } return 0; } ") ($"find") [VInt 9] = Some (Val (object (VInt 3)), []) /\
  run_text ($"int find(int n) { for (int i = 0; i < n; i = i + 1) { if (i == 3) { return i; } } return 0; } ") ($"find") [VInt 2] = Some (Val (object (VInt 0)), []).
Proof.
  split; [|split; vm_compute; reflexivity]. split; [apply (bool_decide_unpack _); by vm_compute|]. constructor; [|constructor].
  split_and!; [by vm_compute|apply (bool_decide_unpack _); by vm_compute|apply (bool_decide_unpack _); by vm_compute|eexists; vm_compute; reflexivity|].
  done.
Qed.
(** A method that returns in both branches of its last statement *)
Definition C68_max : meth := Meth (Some TInt) ($"max") [(TInt, $"a"); (TInt, $"b")]
  [YIf (XBin 2 COMPARE_LESS ($"<") (XName ($"a")) (XName ($"b"))) (YBlock [YReturn (Some (XName ($"b")))]) (Some (YBlock [YReturn (Some (XName ($"a")))]))].
Example C68_branches_ex : well_typed [C68_max] /\
  run_text ($"int max(int a, int b) { if (a < b) { return b; } else { return a; } } ") ($"max") [VInt 9; VInt 4] = Some (Val (object (VInt 9)), []) /\
  run_text ($"int max(int a, int b) { if (a < b) { return b; } else { return a; } } ") ($"max") [VInt 3; VInt 4] = Some (Val (object (VInt 4)), []).
Proof.
  split; [|split; vm_compute; reflexivity]. split; [apply (bool_decide_unpack _); by vm_compute|]. constructor; [|constructor].
  split_and!; [by vm_compute|apply (bool_decide_unpack _); by vm_compute|apply (bool_decide_unpack _); by vm_compute|eexists; vm_compute; reflexivity|done].
Qed.
(** A run that is stopped *)
Example C68_stopped_ex : run_text ($"int div(int n) { return 6 / n; } ") ($"div") [VInt 0] = Some (Undef, []) /\
  run_text ($"int div(int n) { return 6 / n; } ") ($"div") [VInt (-2)] = Some (Val (object (VInt (-3))), []).
Proof. split; vm_compute; reflexivity. Qed.
(** Texts that are refused: a name or a method that is not there, a type that does not fit, a jump that has no loop, no return. *)
Example C68_refused_ex : Forall (fun s => exists x, load_text ex_fio (fun _ _ => None) (fun _ _ => false) s = Throw x)
  [$"void f(int n) { print(m); } "; $"void f(int n) { g(n); } "; $"void f(int n) { n = ""a""; } "; $"void f(bool b) { b = b + 1; } ";
   $"void f(int n) { break; } "; $"int f(int n) { n = 1; } "; $"int f(int n) { return true; } "; $"void f(int n) { return n; } ";
   $"void f(int n) { int a; int a; } "; $"void f(int n) { { int a; } a = 1; } "; $"void f(int n, int n) { } "; $"void f(int n) { f(true); } "].
Proof. repeat (constructor; [eexists; vm_compute; reflexivity|]). constructor. Qed.

(** ** Where the claim fails
    Texts outside of the well typed ones that are accepted nevertheless, and what they do. *)
(** A local variable with the name of a parameter is accepted when the text is loaded, and an error when the method runs. *)
Theorem C68_parameter_redeclared_refuted : run_text ($"void f(int n) { int n; } ") ($"f") [VInt 4] = Some (Crash "DuplicateIdentifier", []).
Proof. vm_compute. reflexivity. Qed.
Print Assumptions C68_parameter_redeclared_refuted.
(** The type of [var x = x] is that of the outer variable, its value that of the new one. *)
Theorem C68_outer_value_refuted :
  run_text ($"void f(int n) { int x = 5; { var x = x; print(x); } print(x); } ") ($"f") [VInt 4] = Some (Val anon, [$"0"; $"5"]).
Proof. vm_compute. reflexivity. Qed.
Print Assumptions C68_outer_value_refuted.
(** The variable of a for loop that is left by break is still there behind the loop. *)
Theorem C68_for_break_refuted :
  run_text ($"void f(int n) { for (int i = 0; i < n; i = i + 1) { if (i == 1) { break; } } int i = 7; print(i); } ") ($"f") [VInt 4] =
    Some (Crash "DuplicateIdentifier", []) /\
  run_text ($"void f(int n) { for (int i = 0; i < n; i = i + 1) { } int i = 7; print(i); } ") ($"f") [VInt 4] = Some (Val anon, [$"7"]).
Proof. split; vm_compute; reflexivity. Qed.
Print Assumptions C68_for_break_refuted.
(** A return in a branch is enough for a method to be accepted; without one the call has no value of the type of the method. *)
Theorem C68_missing_return_refuted :
  run_text ($"int f(int n) { if (n < 1) { return 3; } } ") ($"f") [VInt 4] = Some (Val anon, []).
Proof. vm_compute. reflexivity. Qed.
Print Assumptions C68_missing_return_refuted.
(** break and continue as the whole body of a loop are refused. *)
Theorem C68_loop_body_refuted :
  run_text ($"void f(int n) { while (true) break; } ") ($"f") [VInt 4] = None /\
  run_text ($"void f(int n) { while (true) { break; } } ") ($"f") [VInt 4] = Some (Val anon, []).
Proof. split; vm_compute; reflexivity. Qed.
Print Assumptions C68_loop_body_refuted.
(** [n++] has the value behind the step. *)
Theorem C68_step_value_refuted :
  run_text ($"void f(int n) { int x = n++; print(x); print(n); } ") ($"f") [VInt 1] = Some (Val anon, [$"2"; $"2"]).
Proof. vm_compute. reflexivity. Qed.
Print Assumptions C68_step_value_refuted.
