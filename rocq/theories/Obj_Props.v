(** C70: what programs with objects print. *)
From Verif Require Import Base Obj_Model Obj_Spec Obj_Proofs Obj_Accept.

(** The claim: an accepted program does what the rules of the language say, with the check the code makes at assignments. *)
Definition does_as_meant (P : prog) : Prop := forall L out, load P = Ok L -> means true P out -> exists n0, forall n, n0 <= n -> run n P = Ok out.

Theorem C70_objects_partial P : fine P -> does_as_meant P.
Proof. intros Hf L out HL Hm. eapply run_as_meant; [apply Hf|done..]. Qed.

(** The rules leave no choice: such a program has one output. *)
Theorem C70_one_output P L out out' : fine P -> load P = Ok L -> means true P out -> means true P out' -> out = out'.
Proof.
  intros Hf HL H1 H2. destruct (C70_objects_partial P Hf L out HL H1) as [n1 R1]. destruct (C70_objects_partial P Hf L out' HL H2) as [n2 R2].
  specialize (R1 (n1 + n2) ltac:(lia)). specialize (R2 (n1 + n2) ltac:(lia)). congruence.
Qed.

(** A program that ends with an exception nobody takes: so does the run. *)
Theorem C70_uncaught_partial P L : fine P -> load P = Ok L -> means_throw true P -> exists n0, forall n, n0 <= n -> run n P = Throw "uncaught exception".
Proof. intros Hf HL Hm. eapply throws_as_meant; [apply Hf|done..]. Qed.
(** So it has no other outcome. *)
Theorem C70_throw_or_output P L out : fine P -> load P = Ok L -> means_throw true P -> ~ means true P out.
Proof.
  intros Hf HL H1 H2. destruct (C70_uncaught_partial P L Hf HL H1) as [n1 R1]. destruct (C70_objects_partial P Hf L out HL H2) as [n2 R2].
  specialize (R1 (n1 + n2) ltac:(lia)). specialize (R2 (n1 + n2) ltac:(lia)). congruence.
Qed.

(** The check at assignments only takes outcomes away: what remains is what the plain rules say. *)
Lemma takes_plain P p H u v w : takes p P H u v w -> takes false P H u v w.
Proof. intros []; econstructor; done. Qed.
Lemma stored_plain P p pl v E H E1 H1 : stored p P pl v E H E1 H1 -> stored false P pl v E H E1 H1.
Proof. intros []; econstructor; try done; by eapply takes_plain. Qed.
Scheme ev_mut := Minimality for ev Sort Prop with evx_mut := Minimality for evx Sort Prop with evsx_mut := Minimality for evsx Sort Prop with evs_mut := Minimality for evs Sort Prop with does_mut := Minimality for does Sort Prop
  with calls_mut := Minimality for calls Sort Prop with sts_mut := Minimality for sts Sort Prop with stx_mut := Minimality for stx Sort Prop.
Theorem C70_check_restricts P out : means true P out -> means false P out.
Proof.
  intros (q & v & B & H1 & H2 & H3 & H4). exists q, v, B. split; [done|]. split; [done|]. split; [|done]. revert H3. clear. generalize (@None (nat * str)) (@nil bval) (BState [] []).
  intros s vs B0. revert s q vs B0 v B.
  eapply (calls_mut true P (ev false P) (evx false P) (evsx false P) (evs false P) (does false P) (calls false P) (sts false P) (stx false P)); intros; try (by econstructor).
  - eapply stx_decl; try done. by eapply takes_plain.
  - eapply stx_assign; try done. by eapply stored_plain.
Qed.

Lemma target_fun P s E H m i q :
  (forall a d, s = Some (a, d) -> ~ knows P d m) -> In q (p_funcs P) /\ fits m i q -> target_of P s E H [m] i None q.
Proof. intros H1 [H2 H3]. by apply target_function. Qed.
Lemma new_intro p P s E c k args vs q M B B1 B2 :
  evs p P s E args B vs B1 -> is_class P c k -> has_method k q /\ fits w_new (length args) q -> m_vis q <> Private -> fresh P c M ->
  does p P (Some (length (b_heap B1), c)) q vs (BState (b_heap B1 ++ [BObject c M]) (b_out B1)) BGo B2 ->
  ev p P s E (XNew c args) B (BObj (length (b_heap B1))) B2.
Proof. intros H1 H2 [H3 H4] H5 H6 H7. by eapply ev_new. Qed.

(** Tactics that follow the rules on a concrete program. *)
Ltac inl := (left; reflexivity) + (right; inl).
Ltac cls := split; [inl|reflexivity].
Ltac elems H := repeat first [destruct H as [H|H]; [subst; cbn in *; try congruence|] | destruct H].
Ltac hasm := (left; inl) + (right; split; [let r := fresh in let H := fresh in intros r H; cbn in H; elems H; intros ?; cbn in *; congruence|reflexivity]).
Ltac nom := let r := fresh "r" in let H := fresh "H" in let H1 := fresh in let H2 := fresh in
  intros r [H|[_ ->]] [H1 H2]; [cbn in H; elems H|cbn in *; try congruence].
Ltac chain := (apply isa_refl) + (eapply isa_up; [cls|reflexivity|chain]).
Ltac pick := once ((eapply picks_own; [cls|hasm|split; reflexivity]) + (eapply picks_up; [cls|nom|reflexivity|pick])).
Ltac fld := once (eexists _, _, _; split; [chain|split; [cls|split; [inl|reflexivity]]]).
Ltac know := once (eexists _, _, _; split; [chain|split; [cls|split; [hasm|reflexivity]]]).
Ltac fst_ := first [eapply first_local; reflexivity | eapply first_this; reflexivity | eapply first_member; [reflexivity|reflexivity|fld|reflexivity|reflexivity]].
Ltac foll := repeat first [apply follow_end | eapply follow_name; [reflexivity|reflexivity|]].
Ltac fre := once ((eapply fresh_top; [cls|reflexivity]) + (eapply fresh_derived; [cls|reflexivity|fre])).
Ltac snoc := match goal with
  | |- located _ _ _ _ [?x; ?n] _ => change [x; n] with (x :: [] ++ [n])
  | |- located _ _ _ _ [?x; ?y; ?n] _ => change [x; y; n] with (x :: [y] ++ [n])
  | |- target_of _ _ _ _ [?x; ?n] _ _ _ => change [x; n] with (x :: [] ++ [n])
  | |- target_of _ _ _ _ [?x; ?y; ?n] _ _ _ => change [x; y; n] with (x :: [y] ++ [n])
  end.
Ltac loc := first
  [ eapply located_local; reflexivity
  | eapply located_own; [reflexivity|reflexivity|fld|reflexivity|reflexivity]
  | snoc; eapply located_member; [fst_|foll|reflexivity|reflexivity] ].
Ltac norm := cbn [b_heap b_out length app lookup list_lookup insert list_insert o_class o_member Z.add Pos.add Pos.succ fst snd].
Ltac hol := first [apply holds_null | eapply holds_obj; reflexivity].
Ltac kin := first [discriminate | intros _; first [left; norm; chain | right; reflexivity]].
Ltac tak := norm; cbn [start]; first
  [ apply takes_int | apply takes_int_bool | apply takes_bool | apply takes_bool_int
  | eapply takes_null; hol | eapply takes_obj; [hol|reflexivity|kin] ].
Ltac sto := first [eapply stored_local; [reflexivity|tak] | eapply stored_member; [reflexivity|reflexivity|tak]].
Ltac targ := first
  [ eapply target_own; [reflexivity|know|reflexivity|pick]
  | eapply target_this; [reflexivity|reflexivity|pick]
  | eapply target_base; [reflexivity|once cls|reflexivity|pick]
  | eapply target_fun; [intros; discriminate|once (split; [inl|split; reflexivity])]
  | snoc; eapply target_object; [first [left; discriminate | right; discriminate]|fst_|foll|reflexivity|pick] ].
Ltac not_below H := inversion H; clear H; subst; try match goal with Hk : is_class _ _ ?k, Hb : c_base ?k = Some _ |- _ => let Hi := fresh in destruct Hk as [Hi ?]; cbn in Hi; elems Hi; cbn in Hb; first [discriminate Hb|injection Hb as <-; not_below_rest] end
with not_below_rest := match goal with H : isa _ _ _ |- _ => not_below H end.
Ltac not_taken := let H := fresh in intros [H|H]; [not_below H|discriminate H].
Ltac rule :=
  norm;
  match goal with
  | |- ev _ _ _ _ (XInt _) _ _ _ => apply ev_int
  | |- ev _ _ _ _ XNull _ _ _ => apply ev_null
  | |- ev _ _ _ _ (XPath _) _ _ _ => eapply ev_path; [fst_|foll]
  | |- ev _ _ _ _ (XCall _ _) _ _ _ => eapply ev_call; [rule|norm; targ|rule]
  | |- ev _ _ _ _ (XNew _ _) _ _ _ => eapply new_intro; [rule|once cls|once (split; [hasm|split; reflexivity])|discriminate|fre|rule]
  | |- ev _ _ _ _ (XAdd _ _) _ _ _ => eapply ev_add; [rule|rule|lia]
  | |- ev _ _ _ _ (XLess _ _) _ _ _ => eapply ev_less; [rule|rule]
  | |- ev _ _ _ _ (XDot _ _) _ _ _ => eapply ev_dot; [discriminate|rule|foll]
  | |- ev _ _ _ _ (XDotCall _ [?m] _) _ _ _ => change [m] with ([] ++ [m]); eapply ev_dotcall; [rule|rule|foll|reflexivity|pick|rule]
  | |- ev _ _ _ _ (XCast _ _) _ _ _ => eapply ev_cast; rule
  | |- evx _ _ _ _ (XCall _ _) _ _ _ => first [eapply evx_call; [rule|norm; targ|rule] | eapply evx_part; cbn [parts]; rule]
  | |- evx _ _ _ _ _ _ _ _ => eapply evx_part; cbn [parts]; rule
  | |- evsx _ _ _ _ (_ :: _) _ _ _ => first [eapply evsx_later; [rule|rule] | eapply evsx_here; rule]
  | |- evs _ _ _ _ [] _ _ _ => apply evs_nil
  | |- evs _ _ _ _ (_ :: _) _ _ _ => eapply evs_cons; [rule|rule]
  | |- does _ _ _ _ _ _ _ _ => eapply does_body; rule
  | |- calls _ _ _ ?q _ _ _ _ => match eval cbn in (m_ret q) with None => eapply calls_void; [reflexivity|rule] | Some _ => eapply calls_value; rule end
  | |- sts _ _ _ _ [] _ _ _ _ => apply sts_nil
  | |- sts _ _ _ _ (SThrow _ :: _) _ _ _ _ => eapply sts_leave; [|rule]; discriminate
  | |- sts _ _ _ _ (SReturn _ :: _) _ _ _ _ => eapply sts_leave; [|rule]; discriminate
  | |- sts _ _ _ _ (SBreak :: _) _ _ _ _ => eapply sts_leave; [|apply stx_break]; discriminate
  | |- sts _ _ _ _ (SContinue :: _) _ _ _ _ => eapply sts_leave; [|apply stx_continue]; discriminate
  | |- sts _ _ _ _ (SIf _ _ _ :: _) _ _ _ _ => first [eapply sts_go; [rule|rule] | eapply sts_leave; [|rule]; discriminate]
  | |- sts _ _ _ _ (_ :: _) _ _ _ _ => first [eapply sts_go; [rule|rule] | eapply sts_leave; [|eapply stx_asks; [constructor|rule]]; discriminate]
  | |- stx _ _ _ _ (SThrow _) _ _ _ _ => eapply stx_throw; rule
  | |- stx _ _ _ _ (STry _ _) _ _ _ _ =>
      first [ eapply (stx_try_caught _ _ _ _ _ _ _ _ []); [rule|reflexivity|apply Forall_nil_2|left; norm; chain|rule]
            | match goal with |- stx _ _ _ _ (STry ?a (?k :: ?r)) _ _ _ _ => change (k :: r) with ([k] ++ r) end;
              eapply stx_try_caught; [rule|reflexivity|apply Forall_cons; split; [norm; not_taken|apply Forall_nil_2]|left; norm; chain|rule]
            | eapply stx_try; [|rule]; discriminate ]
  | |- stx _ _ _ _ (SDecl _ _ _) _ _ _ _ => eapply stx_decl; [reflexivity|rule|tak]
  | |- stx _ _ _ _ (SAssign _ _) _ _ _ _ => eapply stx_assign; [loc|rule|sto]
  | |- stx _ _ _ _ (SPrint _) _ _ _ _ => eapply stx_print; rule
  | |- stx _ _ _ _ (SExpr _) _ _ _ _ => eapply stx_expr; rule
  | |- stx _ _ _ _ (SReturn (Some _)) _ _ _ _ => eapply stx_return; rule
  | |- stx _ _ _ _ (SReturn None) _ _ _ _ => eapply stx_leave
  | |- stx _ _ _ _ (SIf _ _ _) _ _ _ _ => eapply stx_if; [rule|vm_compute; reflexivity|cbn iota; rule]
  | |- stx _ _ _ _ (SBlock _) _ _ _ _ => eapply stx_block; rule
  | |- stx _ _ _ _ SSkip _ _ _ _ => apply stx_skip
  | |- stx _ _ _ _ (SWhile _ _) _ _ _ _ =>
      first [ eapply stx_while_end; [rule|vm_compute; reflexivity]
            | eapply stx_while_turn; [rule|vm_compute; reflexivity|rule|first [left; reflexivity | right; reflexivity]|rule]
            | eapply stx_while_break; [rule|vm_compute; reflexivity|rule] ]
  | |- m_body _ = _ => reflexivity
  | |- _ => progress cbn [m_body m_params params snd fst map]; rule
  end.
Lemma means_intro p P q v B out : (In q (p_funcs P) /\ fits ($"main") 0 q) -> calls p P None q [] (BState [] []) v B -> b_out B = out -> means p P out.
Proof. intros [H1 H2] H3 H4. by exists q, v, B. Qed.
Ltac meant := eapply means_intro; [once (split; [inl|split; reflexivity])|rule|reflexivity].

(** A counter, a class that overrides its method and calls the one above, and functions that use both. *)
Definition ex_counter := Cls ($"Counter") None [Field Private TInt ($"n")]
  [Meth Public None ($"add") [(TInt, $"k")] [SAssign [$"n"] (XAdd (XPath [w_this; $"n"]) (XPath [$"k"]))];
   Meth Public (Some TInt) ($"get") [] [SReturn (Some (XPath [$"n"]))]].
Definition ex_loud := Cls ($"Loud") (Some ($"Counter")) [Field Private TInt ($"calls"); Field Public (TObj ($"Loud")) ($"last")]
  [Meth Public None w_new [(TInt, $"start")] [SExpr (XCall [w_base; $"add"] [XPath [$"start"]])];
   Meth Public None ($"add") [(TInt, $"k")] [SAssign [$"calls"] (XAdd (XPath [$"calls"]) (XInt 1)); SExpr (XCall [w_base; $"add"] [XPath [$"k"]])];
   Meth Public (Some (TObj ($"Loud"))) ($"twice") [(TInt, $"k")]
     [SExpr (XCall [$"add"] [XPath [$"k"]]); SExpr (XCall [w_this; $"add"] [XPath [$"k"]]); SAssign [w_this; $"last"] (XPath [w_this]); SReturn (Some (XPath [w_this]))];
   Meth Public (Some TInt) ($"times") [] [SReturn (Some (XPath [$"calls"]))];
   Meth Public (Some TInt) ($"late") [] [SReturn (Some (XCall [$"last"; $"times"] []))]].
Definition ex_main :=
  [Meth Public (Some TInt) ($"bump") [(TObj ($"Counter"), $"c")] [SExpr (XCall [$"c"; $"add"] [XInt 5]); SReturn (Some (XCall [$"c"; $"get"] []))];
   Meth Public (Some TInt) ($"risky") [(TInt, $"k")]
     [SIf (XLess (XPath [$"k"]) (XInt 2)) (SBlock [SDecl (TObj ($"Counter")) ($"c") (XNew ($"Counter") []); SExpr (XCall [$"c"; $"add"] [XPath [$"k"]]); SThrow (XPath [$"c"])]) SSkip;
      SReturn (Some (XPath [$"k"]))];
   Meth Public None ($"main") []
     [SDecl (TObj ($"Loud")) ($"l") (XNew ($"Loud") [XInt 100]);
      STry (SBlock [SPrint (XCall [$"risky"] [XInt 8]); SPrint (XAdd (XInt 1) (XCall [$"risky"] [XCall [$"risky"] [XInt 1]])); SPrint (XInt 9)])
        [($"Loud", $"e", SBlock [SPrint (XInt 3)]); ($"Counter", $"e", SBlock [SPrint (XAdd (XInt 40) (XCall [$"e"; $"get"] []))])];
      SPrint (XCall [$"bump"] [XCast ($"Counter") (XPath [$"l"])]);
      SPrint (XDotCall (XCall [$"l"; $"twice"] [XInt 7]) [$"get"] []);
      SIf (XLess (XInt 2) (XCall [$"l"; $"last"; $"times"] [])) (SBlock [SPrint (XCall [$"l"; $"late"] [])]) (SBlock []);
      SDecl TInt ($"i") (XInt 0);
      SWhile (XLess (XPath [$"i"]) (XInt 10))
        [SAssign [$"i"] (XAdd (XPath [$"i"]) (XInt 1));
         SIf (XLess (XPath [$"i"]) (XInt 2)) (SBlock [SContinue]) SSkip;
         SPrint (XCall [$"bump"] [XCast ($"Counter") (XPath [$"l"])]);
         SIf (XLess (XInt 2) (XPath [$"i"])) (SBlock [SBreak]) SSkip]]].
Definition ex_prog := Prog [ex_counter; ex_loud] ex_main.
Example C70_ex_means : means true ex_prog [8%Z; 41%Z; 105%Z; 119%Z; 3%Z; 124%Z; 129%Z].
Proof. meant. Qed.
Example C70_ex_runs : (exists L, load ex_prog = Ok L) /\ run 60 ex_prog = Ok [8%Z; 41%Z; 105%Z; 119%Z; 3%Z; 124%Z; 129%Z].
Proof. split; [|vm_compute; reflexivity]. destruct (load ex_prog) as [L| | |] eqn:H; [by eexists|..]; vm_compute in H; discriminate H. Qed.
Lemma ex_class c k : is_class ex_prog c k -> (c = $"Counter" /\ k = ex_counter) \/ (c = $"Loud" /\ k = ex_loud).
Proof. intros [[<-|[<-|[]]] <-]; [left|right]; done. Qed.
Lemma ex_isa c d : isa ex_prog c d -> c = d \/ (c = $"Loud" /\ d = $"Counter").
Proof.
  induction 1 as [c|c k b d Hk Hb _ IH]; [by left|]. right.
  apply ex_class in Hk as [[-> ->]|[-> ->]]; [done|]. injection Hb as <-. split; [done|]. by destruct IH as [<-|[? _]].
Qed.
Ltac split_in H := cbn in H; repeat (destruct H as [H|H]; [subst; cbn in *|]); try done.
Ltac split_has H := let Hn := fresh in destruct H as [H|[Hn ->]]; [split_in H|try (exfalso; by eapply Hn; [left|]); cbn in *].
Ltac facts :=
  repeat match goal with
  | H : isa ex_prog _ _ |- _ => apply ex_isa in H as [?|[? ?]]; subst
  | H : is_class ex_prog _ _ |- _ => apply ex_class in H as [[? ?]|[? ?]]; subst
  | H : Some _ = Some _ |- _ => injection H as ?; subst
  end.
Ltac finish := facts; try done;
  repeat match goal with
  | H : In _ (c_fields _) |- _ => split_in H
  | H : In _ (p_classes ex_prog) |- _ => split_in H
  | H : has_method _ _ |- _ => split_has H
  | H : _ = _ \/ _ |- _ => destruct H as [H|H]
  | H : False |- _ => destruct H
  end; subst; cbn in *; try done; try congruence.
Ltac nodup := refine (bool_decide_unpack _ _); vm_compute; exact I.
Lemma ex_local D x : x <> w_this -> x <> w_base -> (forall k, In k (p_classes ex_prog) -> ~ In x (map f_name (c_fields k) ++ w_new :: map m_name (c_methods k))) -> fine_local ex_prog D x.
Proof.
  intros H1 H2 H3. split; [done|]. split; [done|]. intros d _ [(c & k & f & _ & [Hk _] & Hf & Hn)|(c & k & q & _ & [Hk _] & Hq & Hn)];
    apply (H3 k Hk); apply in_app_iff.
  - left. rewrite <- Hn. by apply in_map.
  - right. destruct Hq as [Hq|[_ ->]]; [|by left]. right. rewrite <- Hn. by apply in_map.
Qed.
Lemma ex_member d x : member_of ex_prog d x -> exists k, In k (p_classes ex_prog) /\ In x (map f_name (c_fields k) ++ w_new :: map m_name (c_methods k)).
Proof.
  intros [(c & k & f & _ & [Hk _] & Hf & Hn)|(c & k & q & _ & [Hk _] & Hq & Hn)]; exists k; (split; [done|]); apply in_app_iff.
  - left. rewrite <- Hn. by apply in_map.
  - right. destruct Hq as [Hq|[_ ->]]; [|by left]. right. rewrite <- Hn. by apply in_map.
Qed.
Ltac no_member := let k := fresh in let H := fresh in let Hx := fresh in intros (k & H & Hx)%ex_member; exfalso; split_in H; split_in Hx.
Ltac known := intros d x n r HD Hp; first [discriminate HD | discriminate Hp | injection HD as <-; injection Hp as <- <- <-; split;
  [first [intros _; eapply known_more; [chain|cls|inl|reflexivity|reflexivity|apply known_last; right; know] | solve [no_member]]
  |first [discriminate | intros _ k b Hk Hb; facts; try discriminate; cbn in Hb; first [discriminate Hb | injection Hb as <-]; split; [reflexivity|]; eexists _, _, _; (split; [chain|split; [cls|split; [left; inl|split; [reflexivity|discriminate]]]])]]].
Ltac locals := apply ex_local; [done|done|]; let k := fresh in let H := fresh in let Hx := fresh in intros k H Hx; split_in H; split_in Hx.
Ltac fine_rule := cbn [fine_expr fine_stmt fine_path fine_target removelast fold_right length app forallb closed];
  repeat first [rewrite bool_decide_eq_true_2 by done | rewrite bool_decide_eq_false_2 by done]; repeat match goal with |- _ /\ _ => split end; try done; try apply Forall_nil_2;
  try known; try (intros ? ? ? ? ? ? ? ? ?; finish).
Lemma ex_same k1 k2 q r : In k1 (p_classes ex_prog) -> In k2 (p_classes ex_prog) -> isa ex_prog (c_name k1) (c_name k2) -> In q (c_methods k1) -> In r (c_methods k2) ->
  signature q = signature r -> map fst (m_params q) = map fst (m_params r).
Proof. intros H1 H2 _ H3 H4. cbn in H1, H2. destruct H1 as [<-|[<-|[]]], H2 as [<-|[<-|[]]]; cbn in H3, H4; elems H3; elems H4; cbn; done. Qed.
Lemma ex_fine : fine ex_prog.
Proof.
  split; [split; [nodup|]; split; [intros k H; split_in H|]; split; [exact ex_same|]; split; [nodup|]; split; [intros k H; cbn in H; destruct H as [<-|[<-|[]]]; eexists; cbn [c_name ex_counter ex_loud]; once fre|]; split|split].
  - apply Forall_cons. split; [|apply Forall_cons; split; [|apply Forall_nil_2]].
    + split; [nodup|]. split; [nodup|]. split; [intros f H; split_in H|]. split; [intros q H; split_in H|].
      intros c d k1 f H1 H2 H3 Hf. split; intros; finish.
    + split; [nodup|]. split; [nodup|]. split; [intros f H; split_in H|]. split; [intros q H; split_in H|].
      intros c d k1 f H1 H2 H3 Hf. split; intros; finish.
  - intros q H. split_in H.
  - intros k q [<-|[<-|[]]] H; cbn in H.
    + destruct H as [<-|[<-|[]]].
      * split.
        -- apply Forall_cons. split; [locals|apply Forall_nil_2].
        -- apply Forall_cons. split; [|apply Forall_nil_2]. fine_rule; try (intros d c k f; intros; finish); try (intros d k; intros; finish).
      * split.
        -- apply Forall_nil_2.
        -- apply Forall_cons. split; [|apply Forall_nil_2]. fine_rule; try (intros d c k f; intros; finish); try (intros d k; intros; finish).
    + destruct H as [<-|[<-|[<-|[<-|[<-|[]]]]]]; (split;
          [repeat (apply Forall_cons; split); try apply Forall_nil_2; locals|
           repeat (apply Forall_cons; split); try apply Forall_nil_2; fine_rule; try (intros d c k f; intros; finish); try (intros d k; intros; finish)]).
  - repeat (apply Forall_cons; split); try apply Forall_nil_2; (split; [repeat (apply Forall_cons; split); try apply Forall_nil_2; locals|
           repeat (apply Forall_cons; split); try apply Forall_nil_2; fine_rule; try (intros d c k f; intros; finish)]).
    apply Forall_cons. split; [|apply Forall_nil_2]. intros k f H Hf Hn. cbn in H. destruct H as [<-|[<-|[]]]; cbn in Hf; intuition (subst; done).
Qed.
Example C70_objects_ex : fine ex_prog /\ means true ex_prog [8%Z; 41%Z; 105%Z; 119%Z; 3%Z; 124%Z; 129%Z] /\ (exists L, load ex_prog = Ok L) /\ run 60 ex_prog = Ok [8%Z; 41%Z; 105%Z; 119%Z; 3%Z; 124%Z; 129%Z].
Proof. split; [apply ex_fine|]. split; [apply C70_ex_means|apply C70_ex_runs]. Qed.
Example C70_ex_all : exists n0, forall n, n0 <= n -> run n ex_prog = Ok [8%Z; 41%Z; 105%Z; 119%Z; 3%Z; 124%Z; 129%Z].
Proof. destruct C70_ex_runs as [[L HL] _]. exact (C70_objects_partial _ ex_fine L _ HL C70_ex_means). Qed.

(** An exception that goes through a call and past a catch part for another class. *)
Definition up_prog := Prog
  [Cls ($"E") None [] []; Cls ($"F") None [] []]
  [Meth Public None ($"f") [] [SPrint (XInt 1); SThrow (XNew ($"E") [])];
   Meth Public None ($"main") [] [STry (SBlock [SExpr (XCall [$"f"] [])]) [($"F", $"x", SBlock [SPrint (XInt 2)])]; SPrint (XInt 3)]].
Example C70_uncaught_ex : fine up_prog /\ (exists L, load up_prog = Ok L) /\ means_throw true up_prog /\ run 30 up_prog = Throw "uncaught exception".
Proof.
  assert (forall c k, is_class up_prog c k -> c_base k = None /\ c_fields k = [] /\ c_methods k = []) as Hc by (intros c k [[<-|[<-|[]]] _]; done).
  split; [|split; [eexists; vm_compute; reflexivity|split; [|vm_compute; reflexivity]]].
  - split; [split; [nodup|]; split; [intros k H; split_in H|]; split|].
    + intros k1 k2 q r H1 _ _ Hq. destruct (Hc (c_name k1) k1 (conj H1 eq_refl)) as (_ & _ & Hm). by rewrite Hm in Hq.
    + split; [nodup|]. split; [|split].
      * intros k [<-|[<-|[]]]; eexists; cbn [c_name]; once fre.
      * apply Forall_forall. intros k Hk%elem_of_list_In. destruct (Hc (c_name k) k (conj Hk eq_refl)) as (_ & Hf & Hm). unfold sound_class. rewrite Hf, Hm.
        split; [constructor|]. split; [constructor|]. by split; [|split].
      * intros q H. split_in H.
    + split.
      * intros k q Hk Hq. destruct (Hc (c_name k) k (conj Hk eq_refl)) as (_ & _ & Hm). by rewrite Hm in Hq.
      * repeat (apply Forall_cons; split); try apply Forall_nil_2; (split; [apply Forall_nil_2|]); repeat (apply Forall_cons; split); try apply Forall_nil_2; cbn; repeat split; try done; intros ? ? ? ? ? ; done.
  - eexists _, (BObj _), _. split; [right; left; reflexivity|]. split; [split; reflexivity|]. eapply does_body. cbn [m_body m_params]. eapply sts_leave; [discriminate|].
    eapply stx_try_on; [eapply stx_block; eapply sts_leave; [|eapply stx_asks; [constructor|rule]]; discriminate|reflexivity|].
    apply Forall_cons; split; [norm; not_taken|apply Forall_nil_2].
Qed.

(** ** Which programs are accepted. *)
Theorem C70_accepted P : simple P -> (exists L, load P = Ok L) <-> well_typed P.
Proof. apply load_accepts. Qed.
Theorem C70_fine_simple P : fine P -> simple P.
Proof. apply fine_simple. Qed.
Example C70_accepted_ex : simple ex_prog /\ well_typed ex_prog.
Proof. pose proof (C70_fine_simple _ ex_fine) as H. split; [done|]. apply (C70_accepted _ H), C70_ex_runs. Qed.
(** A member of another class has to be public; a member of the own class need not be. *)
Definition guard_prog (v : vis) (o : bool) := Prog
  [Cls ($"A") None [Field v TInt ($"x")] [Meth Public (Some TInt) ($"of") [(TObj ($"A"), $"a")] [SReturn (Some (XPath [$"a"; $"x"]))]]]
  [Meth Public None ($"main") [] (SDecl (TObj ($"A")) ($"b") (XNew ($"A") []) :: (if o then [SPrint (XPath [$"b"; $"x"])] else []))].
Lemma guard_simple v o : simple (guard_prog v o).
Proof.
  assert (forall c k, is_class (guard_prog v o) c k -> c = $"A" /\ k = Cls ($"A") None [Field v TInt ($"x")] [Meth Public (Some TInt) ($"of") [(TObj ($"A"), $"a")] [SReturn (Some (XPath [$"a"; $"x"]))]]) as Hc.
  { intros c k [[<-|[]] <-]. done. }
  assert (forall D x, x <> w_this -> x <> w_base -> x <> $"x" -> x <> $"of" -> x <> w_new -> fine_local (guard_prog v o) D x) as Hl.
  { intros D x H1 H2 H3 H4 H5. split; [done|]. split; [done|]. intros d _ [(c & k & f & _ & [_ ->]%Hc & Hf & Hn)|(c & k & q & _ & [_ ->]%Hc & Hq & Hn)].
    - cbn in Hf. destruct Hf as [<-|[]]. by apply H3.
    - destruct Hq as [Hq|[_ ->]]; [|by apply H5]. cbn in Hq. destruct Hq as [<-|[]]. by apply H4. }
  split; [split; [nodup|]; split; [intros k H; split_in H|]; split; [intros k1 k2 q r [<-|[]] [<-|[]] _ [<-|[]] [<-|[]]; done|]; split; [nodup|]; split; [|split]|split].
  - intros k [<-|[]]. eexists. eapply fresh_top; [cls|reflexivity].
  - apply Forall_cons. split; [|apply Forall_nil_2]. split; [nodup|]. split; [nodup|]. split; [intros f H; split_in H|]. split; [intros q H; split_in H|].
    intros c d k1 f _ _ [-> ->]%Hc [<-|[]]. split; [done|]. intros q [[<-|[]]|[_ ->]]; done.
  - intros q [<-|[]]. done.
  - intros k q [<-|[]] [<-|[]]. split.
    + apply Forall_cons. split; [by apply Hl|apply Forall_nil_2].
    + apply Forall_cons. split; [|apply Forall_nil_2]. intros d y n r [= <-] [= <- <- <-]. split; [|done]. intros Hm. exfalso.
      assert (fine_local (guard_prog v o) (Some ($"A")) ($"a")) as (_ & _ & Hx) by (by apply Hl). by apply (Hx _ eq_refl).
  - apply Forall_cons. split; [|apply Forall_nil_2]. split; [apply Forall_nil_2|]. apply Forall_cons. split.
    + split; [by apply Hl|done].
    + destruct o; [|apply Forall_nil_2]. apply Forall_cons. split; [|apply Forall_nil_2]. intros d y n r [=].
Qed.
Example C70_accepted_private v o : well_typed (guard_prog v o) <-> v = Public \/ o = false.
Proof.
  rewrite <- (C70_accepted _ (guard_simple v o)). split.
  - intros [L HL]. destruct v, o; try (by left); try (by right); vm_compute in HL; discriminate HL.
  - intros [->| ->]; [destruct o|destruct v]; eexists; vm_compute; reflexivity.
Qed.

(** The types of arguments, results and assigned values have to fit: an object of the type directly below can be put into a
    variable when it is declared, and nowhere else without a cast. *)
Definition fit_prog (body : list stmt) := Prog
  [Cls ($"A") None [] []; Cls ($"B") (Some ($"A")) [] []; Cls ($"C") (Some ($"B")) [] []]
  [Meth Public (Some (TObj ($"A"))) ($"f") [(TObj ($"A"), $"a")] [SReturn (Some (XPath [$"a"]))]; Meth Public None ($"main") [] body].
Definition mk (c : str) := XNew c [].
Example C70_types :
  (exists L, load (fit_prog [SDecl (TObj ($"A")) ($"x") (mk ($"B")); SExpr (XCall [$"f"] [XCast ($"A") (mk ($"C"))])]) = Ok L) /\
  load (fit_prog [SDecl (TObj ($"A")) ($"x") (mk ($"C"))]) = Throw "TypeMismatch" /\
  load (fit_prog [SDecl (TObj ($"A")) ($"x") XNull]) = Throw "TypeMismatch" /\
  load (fit_prog [SDecl (TObj ($"A")) ($"x") (mk ($"A")); SAssign [$"x"] (mk ($"B"))]) = Throw "TypeMismatch" /\
  load (fit_prog [SExpr (XCall [$"f"] [mk ($"B")])]) = Throw "unknown method" /\
  load (fit_prog [SReturn (Some (XInt 0))]) = Throw "TypeMismatch" /\
  load (fit_prog [SPrint (XAdd (XInt 0) (mk ($"A")))]) = Throw "TypeMismatch".
Proof. split; [eexists; vm_compute; reflexivity|]. vm_compute. done. Qed.

(** ** Where the code leaves the rules. Each program is accepted and has a meaning, and its run does something else. *)
Definition astray (picky : bool) (P : prog) (out : list Z) (r : res (list Z)) : Prop :=
  (exists L, load P = Ok L) /\ means picky P out /\ (exists n, run n P = r) /\ r <> Ok out /\ r <> Fuel.
Lemma astray_refutes p P out r : astray p P out r -> exists L, load P = Ok L /\ means p P out /\ ~ (forall n, run n P = Ok out).
Proof. intros ((L & HL) & Hm & (n & Hn) & Hr & _). exists L. split; [done|]. split; [done|]. intros H. congruence. Qed.
Ltac stray n := split; [eexists; vm_compute; reflexivity|split; [meant|split; [exists n; vm_compute; reflexivity|split; discriminate]]].

(** A parameter with the name of a member cannot be read: 'this.x = x' keeps the old value. *)
Definition shadow_prog := Prog
  [Cls ($"Point") None [Field Public TInt ($"x")] [Meth Public None ($"set") [(TInt, $"x")] [SAssign [w_this; $"x"] (XPath [$"x"])]]]
  [Meth Public None ($"main") []
     [SDecl (TObj ($"Point")) ($"p") (XNew ($"Point") []); SExpr (XCall [$"p"; $"set"] [XInt 5]); SPrint (XPath [$"p"; $"x"])]].
Theorem C70_parameter_hidden_refuted : astray true shadow_prog [5%Z] (Ok [0%Z]).
Proof. stray 30. Qed.
(** A method of a base class does not call the overriding method of the object it runs on. *)
Definition dispatch_prog := Prog
  [Cls ($"Shape") None [] [Meth Public (Some TInt) ($"area") [] [SReturn (Some (XInt 1))]; Meth Public (Some TInt) ($"twice") [] [SReturn (Some (XAdd (XCall [w_this; $"area"] []) (XCall [$"area"] [])))]];
   Cls ($"Square") (Some ($"Shape")) [] [Meth Public (Some TInt) ($"area") [] [SReturn (Some (XInt 9))]]]
  [Meth Public None ($"main") [] [SDecl (TObj ($"Square")) ($"s") (XNew ($"Square") []); SPrint (XCall [$"s"; $"twice"] [])]].
Theorem C70_no_virtual_call_refuted : astray true dispatch_prog [18%Z] (Ok [2%Z]).
Proof. stray 30. Qed.
(** 'this' in an inherited method is null for everybody it is handed to. *)
Definition this_prog := Prog
  [Cls ($"Base") None [Field Public TInt ($"x")] [Meth Public (Some (TObj ($"Base"))) ($"self") [] [SReturn (Some (XPath [w_this]))]];
   Cls ($"Derived") (Some ($"Base")) [] []]
  [Meth Public None ($"main") []
     [SDecl (TObj ($"Derived")) ($"d") (XNew ($"Derived") []); SDecl (TObj ($"Base")) ($"b") (XCall [$"d"; $"self"] []);
      SIf (XPath [$"b"]) (SBlock [SPrint (XInt 1)]) (SBlock [SPrint (XInt 0)])]].
Theorem C70_inherited_this_refuted : astray true this_prog [1%Z] (Ok [0%Z]).
Proof. stray 30. Qed.
(** The arguments of a call behind a call are looked up in the object that is called. *)
Definition argument_prog := Prog
  [Cls ($"Box") None [Field Public TInt ($"v")]
     [Meth Public (Some (TObj ($"Box"))) ($"me") [] [SReturn (Some (XPath [w_this]))]; Meth Public (Some TInt) ($"same") [(TInt, $"k")] [SReturn (Some (XPath [$"k"]))]]]
  [Meth Public None ($"main") []
     [SDecl (TObj ($"Box")) ($"b") (XNew ($"Box") []); SDecl TInt ($"v") (XInt 7); SPrint (XDotCall (XCall [$"b"; $"me"] []) [$"same"] [XPath [$"v"]])]].
Theorem C70_argument_scope_refuted : astray true argument_prog [7%Z] (Ok [0%Z]).
Proof. stray 30. Qed.
(** A private member of a base class is accepted in the derived class and missing at run time. *)
Definition private_prog := Prog
  [Cls ($"Base") None [Field Private TInt ($"x")] [];
   Cls ($"Derived") (Some ($"Base")) [] [Meth Public (Some TInt) ($"get") [] [SReturn (Some (XPath [$"x"]))]]]
  [Meth Public None ($"main") [] [SDecl (TObj ($"Derived")) ($"d") (XNew ($"Derived") []); SPrint (XCall [$"d"; $"get"] [])]].
Theorem C70_private_inherited_refuted : astray true private_prog [0%Z] (Throw "NullPointerException").
Proof. stray 30. Qed.
(** A private member of another object of the same class is missing when that object is of a derived class. *)
Definition other_prog := Prog
  [Cls ($"Base") None [Field Private TInt ($"x")] [Meth Public (Some TInt) ($"of") [(TObj ($"Base"), $"other")] [SReturn (Some (XPath [$"other"; $"x"]))]];
   Cls ($"Derived") (Some ($"Base")) [] []]
  [Meth Public None ($"main") []
     [SDecl (TObj ($"Base")) ($"b") (XNew ($"Base") []); SPrint (XCall [$"b"; $"of"] [XPath [$"b"]]); SPrint (XCall [$"b"; $"of"] [XCast ($"Base") (XNew ($"Derived") [])])]].
Theorem C70_private_of_derived_refuted : astray true other_prog [0%Z; 0%Z] (Throw "NullPointerException").
Proof. stray 30. Qed.
(** A member that refers to nothing is read through to the object that has it: 'node.next.value' is 'node.value' at the end
    of a list. The rules give this program no meaning. *)
Definition null_body : list stmt :=
  [SDecl (TObj ($"Node")) ($"n") (XNew ($"Node") []); SPrint (XPath [$"n"; $"next"; $"value"]);
   SPrint (XCall [$"n"; $"next"; $"get"] []); SAssign [$"n"; $"next"; $"value"] (XInt 8); SPrint (XPath [$"n"; $"value"])].
Definition null_prog := Prog
  [Cls ($"Node") None [Field Public TInt ($"value"); Field Public (TObj ($"Node")) ($"next")] [Meth Public (Some TInt) ($"get") [] [SReturn (Some (XPath [$"value"]))]]]
  [Meth Public None ($"main") [] null_body].
Lemma quiet_new p P s E c B v B1 : ~ evx p P s E (XNew c []) B v B1.
Proof. intros H. inversion H as [? ? ? ? ? ? Hs|]; subst. inversion Hs. Qed.
Lemma quiet_path p P s E x B v B1 : ~ evx p P s E (XPath x) B v B1.
Proof. intros H. inversion H as [? ? ? ? ? ? Hs|]; subst. inversion Hs. Qed.
Ltac quiet_stmt H := inversion H; subst; try done; try (match goal with Ha : asks _ _ |- _ => inversion Ha; subst end); first [by eapply quiet_new | by eapply quiet_path].
Lemma null_no_meaning p f E' B : ~ sts p null_prog None [fun _ => None] null_body (BState [] []) f E' B.
Proof.
  intros H. inversion H as [|? ? E1 ? ? ? ? ? B1 ? Hx Hl|? ? ? ? ? ? ? ? Hgo Hx]; subst; clear H; [|quiet_stmt Hx].
  inversion Hx as [? ? ? ? ? ? v w ? ? _ He Ht| | | | | | | | | | | | | | | | | | | | | |]; subst; clear Hx.
  inversion He as [| | | |? ? ? k ? ? q M ? B2 ? Ha Hk Hq Hfit _ Hf Hd| | | | |]; subst; clear He.
  inversion Ht as [| | | | |? t0 ? ? Hh0 Ho0 Hp0]; subst; clear Ht.
  inversion Ha; subst. clear Ha. destruct Hk as [[<-|[]] _]. destruct Hq as [[<-|[]]|[_ ->]]; [by destruct Hfit|].
  inversion Hd as [? ? ? E2 ? ? ? Hb]; subst; clear Hd. cbn in Hb. inversion Hb; subst; clear Hb; try done.
  assert (M = with_fields (Cls ($"Node") None [Field Public TInt ($"value"); Field Public (TObj ($"Node")) ($"next")] [Meth Public (Some TInt) ($"get") [] [SReturn (Some (XPath [$"value"]))]]) (fun _ => None)) as ->.
  { inversion Hf as [? k [[<-|[]] _] _|? k b ? [[<-|[]] _] Hk]; subst; [done|discriminate Hk]. }
  clear Hf Hfit. inversion Hl as [|? ? E3 ? ? ? ? ? B3 ? Hx _|? ? ? ? ? ? ? ? Hgo Hx]; subst; clear Hl; [|quiet_stmt Hx].
  inversion Hx as [| |? ? ? z ? ? He| | | | | | | | | | | | | | | | | | | |]; subst; clear Hx. inversion He as [| |? ? ? ? w ? ? H1 H2| | | | | | |]; subst; clear He.
  inversion H1 as [? ? Hl|? ? ? ? ? _ Hs|]; subst; [|discriminate Hs]. cbn in Hl. injection Hl as <-. clear H1.
  inversion H2 as [|a o' n w r ? Ho Hw Hr]; subst; clear H2. cbn in Ho. injection Ho as <-. cbn in Hw. injection Hw as <-. inversion Hr.
Qed.
Theorem C70_null_member_refuted : (exists L, load null_prog = Ok L) /\ run 30 null_prog = Ok [0%Z; 0%Z; 8%Z] /\ forall p out, ~ means p null_prog out.
Proof.
  split; [eexists; vm_compute; reflexivity|]. split; [vm_compute; reflexivity|].
  intros p out (q & v & B & [<-|[]] & _ & Hc & _).
  inversion Hc as [? ? ? ? ? ? Hd|? ? ? ? ? _ Hd]; subst; inversion Hd as [? ? ? ? ? ? ? Hs]; subst; by eapply null_no_meaning.
Qed.
(** A chain from a member of the own object that gets lost is continued without its beginning: 'a.x' reads the own x, although
    the type of a has no x and the object in a has none. *)
Definition lost_prog := Prog
  [Cls ($"A") None [] [];
   Cls ($"C") None [Field Public (TObj ($"A")) ($"a"); Field Public TInt ($"x")]
     [Meth Public (Some TInt) ($"f") [] [SAssign [$"a"] (XNew ($"A") []); SAssign [$"x"] (XInt 7); SReturn (Some (XPath [$"a"; $"x"]))]]]
  [Meth Public None ($"main") [] [SDecl (TObj ($"C")) ($"c") (XNew ($"C") []); SPrint (XCall [$"c"; $"f"] [])]].
Theorem C70_lost_chain_refuted : (exists L, load lost_prog = Ok L) /\ ~ member_of lost_prog ($"A") ($"x") /\ run 30 lost_prog = Ok [7%Z].
Proof.
  split; [eexists; vm_compute; reflexivity|]. split; [|vm_compute; reflexivity].
  assert (forall d, isa lost_prog ($"A") d -> d = $"A") as Hi.
  { intros d H. inversion H as [|? k b ? [Hk Hn] Hb _]; [done|]. cbn in Hk. destruct Hk as [<-|[<-|[]]]; discriminate. }
  intros [(c & k & f & H%Hi & [Hk Hn] & Hf & Hx)|(c & k & q & H%Hi & [Hk Hn] & Hf & Hx)]; subst c; cbn in Hk; destruct Hk as [<-|[<-|[]]]; try discriminate; cbn in Hf; [done|].
  destruct Hf as [[]|[_ ->]]. discriminate.
Qed.
(** 'base.m' runs the own method m if the class above has none. *)
Definition no_base_prog := Prog
  [Cls ($"B") None [] [];
   Cls ($"C") (Some ($"B")) [] [Meth Public (Some TInt) ($"m") [] [SReturn (Some (XInt 1))]; Meth Public (Some TInt) ($"f") [] [SReturn (Some (XCall [w_base; $"m"] []))]]]
  [Meth Public None ($"main") [] [SDecl (TObj ($"C")) ($"c") (XNew ($"C") []); SPrint (XCall [$"c"; $"f"] [])]].
Theorem C70_no_base_method_refuted : (exists L, load no_base_prog = Ok L) /\ ~ knows no_base_prog ($"B") ($"m") /\ run 30 no_base_prog = Ok [1%Z].
Proof.
  split; [eexists; vm_compute; reflexivity|]. split; [|vm_compute; reflexivity].
  intros (c & k & q & H & [Hk Hn] & Hf & Hx). assert (c = $"B") as ->.
  { inversion H as [|? k' b ? [Hk' Hn'] Hb _]; [done|]. subst. cbn in Hk'. destruct Hk' as [<-|[<-|[]]]; discriminate. }
  cbn in Hk. destruct Hk as [<-|[<-|[]]]; [|discriminate]. destruct Hf as [[]|[_ ->]]. discriminate.
Qed.
(** Behind a member of the own object nothing is private: another class reads and writes what is not its own. *)
Definition open_prog := Prog
  [Cls ($"A") None [Field Private TInt ($"secret")] [];
   Cls ($"C") None [Field Public (TObj ($"A")) ($"a")]
     [Meth Public (Some TInt) ($"f") [] [SAssign [$"a"] (XNew ($"A") []); SAssign [$"a"; $"secret"] (XInt 7); SReturn (Some (XPath [$"a"; $"secret"]))]]]
  [Meth Public None ($"main") [] [SDecl (TObj ($"C")) ($"c") (XNew ($"C") []); SPrint (XCall [$"c"; $"f"] [])]].
Theorem C70_private_through_member_refuted : (exists L, load open_prog = Ok L) /\ run 30 open_prog = Ok [7%Z].
Proof. split; [eexists; vm_compute; reflexivity|vm_compute; reflexivity]. Qed.
(** A variable that has held an object of a derived class cannot take one of its own class any more. The generator accepts it. *)
Definition again_prog := Prog
  [Cls ($"Base") None [Field Public TInt ($"x")] []; Cls ($"Derived") (Some ($"Base")) [] []]
  [Meth Public None ($"main") []
     [SDecl (TObj ($"Base")) ($"b") (XNew ($"Derived") []); SPrint (XInt 1); SAssign [$"b"] (XNew ($"Base") []); SPrint (XPath [$"b"; $"x"])]].
Theorem C70_reassigned_refuted : astray false again_prog [1%Z; 0%Z] (Throw "InvalidOperation").
Proof. stray 30. Qed.
Print Assumptions C70_objects_partial.
Print Assumptions C70_uncaught_partial.
Print Assumptions C70_throw_or_output.
Print Assumptions C70_one_output.
Print Assumptions C70_check_restricts.
Print Assumptions C70_accepted.
Print Assumptions C70_fine_simple.
Print Assumptions C70_parameter_hidden_refuted.
Print Assumptions C70_no_virtual_call_refuted.
Print Assumptions C70_inherited_this_refuted.
Print Assumptions C70_argument_scope_refuted.
Print Assumptions C70_private_inherited_refuted.
Print Assumptions C70_private_of_derived_refuted.
Print Assumptions C70_null_member_refuted.
Print Assumptions C70_lost_chain_refuted.
Print Assumptions C70_no_base_method_refuted.
Print Assumptions C70_private_through_member_refuted.
Print Assumptions C70_reassigned_refuted.
