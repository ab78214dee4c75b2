(** C64: const variables, parameters, methods and members. *)
From Verif Require Import Base Base_Proofs Const_Model Const_Spec Const_Proofs Const_Locals Const_Types Const_Pure.
Open Scope Z_scope.

(** ** A program for the examples *)
Definition n_x := $"x". Definition n_v := $"v". Definition n_f := $"f". Definition n_g := $"g". Definition n_a := $"a".
Definition n_c := $"c". Definition n_set := $"set". Definition n_get := $"get". Definition n_run := $"run".
Definition n_sum := $"sum". Definition n_Foo := $"Foo". Definition n_Main := $"Main".

(** [public modify void set(int v)] and [public int get() const]. *)
Definition m_set : meth := Meth n_set KMethod false None false [Par n_v TInt false false] [SExpr (EAssign [n_x] (EPath [n_v]))].
Definition m_get : meth := Meth n_get KMethod true (Some TInt) false [] [SReturn (Some (EPath [n_x]))].
Definition c_foo : cls := Cls n_Foo [Mem n_x TInt false] [m_set; m_get].
(** [public int sum(Foo f const) const { int a = f.get(); while (a) { a--; } a = a + f.get(); return a; }] *)
Definition m_sum : meth :=
  Meth n_sum KMethod true (Some TInt) false [Par n_f (TCls n_Foo) true false]
    [SDecl TInt n_a false (Some (ECall [n_f; n_get] [])); SWhile (EPath [n_a]) [SExpr (EInc [n_a] (-1))];
     SExpr (EAssign [n_a] (EAdd (EPath [n_a]) (ECall [n_f; n_get] []))); SReturn (Some (EPath [n_a]))].
Definition c_main (l : list meth) : cls := Cls n_Main [] l.
Definition prog_ok : prog := [c_foo; c_main [m_sum]].
(** An object of class Foo with x = 3, and one of class Main. *)
Definition heap_ok : heap := [HObj (TCls n_Foo) 0 [(n_x, Hnd 3 false None)]; HObj (TCls n_Main) 0 []].
Definition foo_ref : hnd := Hnd 0 true (Some 0%nat).

(** The number in member x of the first object. *)
Definition first_x (h : heap) : option Z :=
  match h !! 0%nat with Some x => match assoc n_x (o_mem x) with Some d => Some (get_value h d) | None => None end | None => None end.

(** ** What is refused *)

(** Nothing is assigned to a const variable, or to anything reached through it, and it is not counted up or down. *)
Theorem C64_const_variable_refused : forall P k m G x e r a d,
  lookup_all x G = Some e -> e_const e = true -> is_member_name k x = false ->
  gen_expr P k m G (EAssign (x :: r) a) = None /\ gen_expr P k m G (EInc (x :: r) d) = None.
Proof.
  intros P k m G x e r a d L C M.
  assert (X : forall ps, resolve_path P k m G (x :: r) = Some ps -> inc_ok m ps = false).
  { intros ps R. unfold resolve_path in R. rewrite M in R. cbn [parts_local] in R. rewrite L in R.
    assert (Y : forall t qs, (forall q, q ∈ qs -> t_member q = false) -> inc_ok m (Part x (e_const e) false (Some t) None :: qs) = false).
    { intros t qs Hq. unfold inc_ok, any_const, any_member. cbn [existsb t_const t_member]. rewrite C. cbn [orb andb].
      replace (existsb t_member qs) with false; [by rewrite andb_false_r|]. symmetry. apply not_true_iff_false. intros Ex.
      apply existsb_exists in Ex as (q & hq & hm). apply elem_of_list_In in hq. by rewrite (Hq q hq) in hm. }
    destruct r as [|y r]; [injection R as <-; apply Y; by intros q ?%elem_of_nil|].
    destruct (e_ty e) as [|c]; [discriminate|]. destruct (find_class P c) as [k'|]; [|discriminate].
    destruct (parts_in P k' (y :: r)) as [qs|] eqn:F; [|discriminate]. injection R as <-. apply Y.
    revert k' qs F. generalize (y :: r). clear. intros p. induction p as [|n s IH]; intros k' qs F; cbn [parts_in] in F.
    - injection F as <-. by intros q ?%elem_of_nil.
    - destruct (find_member k' n) as [b|].
      + destruct s as [|n' s]; [injection F as <-; by intros q ->%elem_of_list_singleton|].
        destruct (b_ty b) as [|c]; [discriminate|]. destruct (find_class P c) as [k1|]; [|discriminate].
        destruct (parts_in P k1 (n' :: s)) as [zs|] eqn:F1; [|discriminate]. injection F as <-.
        intros q [->|hq]%elem_of_cons; [reflexivity|by eapply IH].
      + destruct (find_method k' n); [|discriminate]. destruct s; [|discriminate]. injection F as <-.
        by intros q ->%elem_of_list_singleton. }
  cbn [gen_expr]. destruct (resolve_path P k m G (x :: r)) as [ps|]; [|done]. specialize (X ps eq_refl). split.
  - destruct (gen_expr P k m G a) as [[a' i]|]; [|done]. destruct (last ps) as [q|]; [|done].
    destruct (t_meth q); [done|]. destruct (t_ty q); [|done]. destruct (assign_ok m ps) eqn:A; [|done].
    by rewrite (assign_inc _ _ A) in X.
  - destruct (last ps) as [q|]; [|done]. destruct (t_meth q); [done|]. by rewrite X.
Qed.
Print Assumptions C64_const_variable_refused.
(** So a program with a method that begins by assigning to a const parameter is refused as a whole. *)
Theorem C64_const_parameter_refused P k m p r a rest :
  In k P -> In m (c_methods k) -> In p (m_params m) -> p_const p = true -> is_member_name k (p_name p) = false ->
  m_body m = SExpr (EAssign (p_name p :: r) a) :: rest -> accepted P = false.
Proof.
  intros Ik Im Ip C M B. apply not_true_iff_false. unfold accepted. rewrite forallb_forall. intros H.
  specialize (H k Ik). apply andb_true_iff in H as [H _]. rewrite forallb_forall in H. specialize (H m Im).
  unfold gen_method in H. destruct (bool_decide _) eqn:D; [|done]. apply bool_decide_eq_true in D as [ND _].
  rewrite B in H. cbn [gen_stmts gen_stmt] in H.
  assert (lookup_all (p_name p) [method_scope k m] = Some (Ent (p_ty p) (p_const p) true)) as L.
  { cbn [lookup_all]. replace (assoc (p_name p) (method_scope k m)) with (Some (Ent (p_ty p) (p_const p) true)); [done|].
    assert (In (p_name p, Ent (p_ty p) (p_const p) true) (method_scope k m)) as I.
    { unfold method_scope, param_entries. apply in_app_iff. left. apply in_rev. rewrite rev_involutive. apply in_map_iff. by exists p. }
    revert ND I. generalize (method_scope k m) (p_name p) (Ent (p_ty p) (p_const p) true). clear.
    induction l as [|[n e] l IH]; intros x y ND I; [done|]. cbn in ND. apply NoDup_cons in ND as [N1 N2].
    unfold assoc in *. cbn [find fst]. destruct I as [[= -> ->]|I].
    - unfold same. by rewrite bool_decide_eq_true_2.
    - destruct (same n x) eqn:E; [|by apply IH]. unfold same in E. apply bool_decide_eq_true in E as ->. exfalso. apply N1. apply elem_of_list_In, in_map_iff.
      by exists (x, y). }
  destruct (C64_const_variable_refused P k m [method_scope k m] (p_name p) _ r a 1 L C M) as [E _]. by rewrite E in H.
Qed.
Print Assumptions C64_const_parameter_refused.
(** [void run(Foo g const) { g = g; }]. *)
Definition m_overwrite : meth :=
  Meth n_run KMethod false None false [Par n_g (TCls n_Foo) true false] [SExpr (EAssign [n_g] (EPath [n_g]))].
Example C64_const_parameter_refused_case : accepted [c_foo; c_main [m_overwrite]] = false.
Proof.
  apply (C64_const_parameter_refused _ (c_main [m_overwrite]) m_overwrite (Par n_g (TCls n_Foo) true false) [] (EPath [n_g]) []);
    try done; cbn; tauto.
Qed.
Example C64_const_variable_refused_case :
  gen_expr prog_ok (c_main [m_sum]) m_sum [method_scope (c_main [m_sum]) m_sum] (EAssign [n_f] (EPath [n_f])) = None
  /\ gen_expr prog_ok (c_main [m_sum]) m_sum [method_scope (c_main [m_sum]) m_sum] (EInc [n_f; n_x] 1) = None.
Proof.
  split.
  - by apply (C64_const_variable_refused prog_ok (c_main [m_sum]) m_sum _ n_f (Ent (TCls n_Foo) true true) [] (EPath [n_f]) 0).
  - by apply (C64_const_variable_refused prog_ok (c_main [m_sum]) m_sum _ n_f (Ent (TCls n_Foo) true true) [n_x] (EPath [n_f]) 1).
Qed.
(** The same for a variable that can be modified is accepted. *)
Example C64_variable_accepted :
  gen_expr prog_ok (c_main [m_sum]) m_sum [[(n_f, Ent (TCls n_Foo) false false)]] (EInc [n_f; n_x] 1) <> None
  /\ gen_expr prog_ok (c_main [m_sum]) m_sum [[(n_f, Ent (TCls n_Foo) false false)]] (EAssign [n_f] (EPath [n_f])) <> None.
Proof. split; vm_compute; discriminate. Qed.

(** A method that is not const is not called on a const variable. *)
Theorem C64_modify_call_refused : forall P k m G x e c k' f g l,
  lookup_all x G = Some e -> e_const e = true -> is_member_name k x = false ->
  e_ty e = TCls c -> find_class P c = Some k' -> find_member k' f = None -> find_method k' f = Some g -> m_const g = false ->
  gen_expr P k m G (ECall [x; f] l) = None.
Proof.
  intros P k m G x e c k' f g l L C M T Fk Fb Fm Cg. rewrite gen_call_eq. unfold resolve_path. rewrite M.
  cbn [parts_local]. rewrite L, T, Fk. cbn [parts_in]. rewrite Fb, Fm. destruct (gen_args P k m G l) as [[l' is]|]; [|done].
  cbn [last t_meth]. unfold call_ok, any_const. cbn [existsb t_const]. rewrite C, Cg. cbn [orb andb negb]. by rewrite !andb_false_r.
Qed.
Print Assumptions C64_modify_call_refused.
Example C64_modify_call_refused_case :
  gen_expr prog_ok (c_main [m_sum]) m_sum [method_scope (c_main [m_sum]) m_sum] (ECall [n_f; n_set] [EInt 1]) = None
  /\ gen_expr prog_ok (c_main [m_sum]) m_sum [method_scope (c_main [m_sum]) m_sum] (ECall [n_f; n_get] []) <> None.
Proof.
  split; [|vm_compute; discriminate].
  by apply (C64_modify_call_refused prog_ok (c_main [m_sum]) m_sum _ n_f (Ent (TCls n_Foo) true true) n_Foo c_foo n_set m_set).
Qed.

(** A const method assigns to no member of its class that it names directly, counts none up or down, and calls none of the
    other methods that are not const. *)
Theorem C64_member_refused : forall P k m G x r a d,
  m_const m = true -> m_kind m = KMethod -> is_member_name k x = true ->
  gen_expr P k m G (EAssign (x :: r) a) = None /\ gen_expr P k m G (EInc (x :: r) d) = None
  /\ forall f g l, find_member k f = None -> find_method k f = Some g -> m_const g = false -> gen_expr P k m G (ECall [f] l) = None.
Proof.
  intros P k m G x r a d C K M. split; [|split].
  - cbn [gen_expr]. unfold resolve_path. rewrite M. destruct (parts_in P k (x :: r)) as [ps|]; [|done].
    destruct (gen_expr P k m G a) as [[a' i]|]; [|done]. destruct (last _) as [q|]; [|done].
    destruct (t_meth q); [done|]. destruct (t_ty q); [|done]. unfold assign_ok, any_member. cbn [existsb t_member]. by rewrite C.
  - cbn [gen_expr]. unfold resolve_path. rewrite M. destruct (parts_in P k (x :: r)) as [ps|]; [|done].
    destruct (last _) as [q|]; [|done]. destruct (t_meth q); [done|]. unfold inc_ok, any_const, allow_const_modify.
    rewrite (bool_decide_true _ K). cbn [existsb t_const]. by rewrite C.
  - intros f g l Fb Fm Cg. rewrite gen_call_eq. unfold resolve_path, is_member_name. rewrite Fb, Fm. cbn [parts_in].
    rewrite Fb, Fm. destruct (gen_args P k m G l) as [[l' is]|]; [|done]. cbn [last t_meth]. unfold call_ok, any_const.
    cbn [existsb t_const]. rewrite C, Cg. cbn [orb andb negb]. by rewrite !andb_false_r.
Qed.
Print Assumptions C64_member_refused.
Example C64_member_refused_case :
  gen_expr prog_ok c_foo m_get [method_scope c_foo m_get] (EAssign [n_x] (EInt 1)) = None
  /\ gen_expr prog_ok c_foo m_get [method_scope c_foo m_get] (ECall [n_set] [EInt 1]) = None
  /\ gen_expr prog_ok c_foo m_set [method_scope c_foo m_set] (EAssign [n_x] (EInt 1)) <> None
  /\ gen_expr prog_ok c_foo m_set [method_scope c_foo m_set] (ECall [n_set] [EInt 1]) <> None.
Proof.
  destruct (C64_member_refused prog_ok c_foo m_get [method_scope c_foo m_get] n_x [] (EInt 1) 0 eq_refl eq_refl eq_refl) as (A & _ & B).
  split; [exact A|]. split; [by apply (B n_set m_set)|]. split; vm_compute; discriminate.
Qed.

(** A const method calls no method that is not const on any object of its own class. *)
Theorem C64_own_class_call_refused : forall P k m G x e k' f g l,
  m_const m = true -> lookup_all x G = Some e -> is_member_name k x = false ->
  e_ty e = TCls (c_name k) -> find_class P (c_name k) = Some k' -> find_member k' f = None -> find_method k' f = Some g ->
  m_const g = false -> m_kind g = KMethod ->
  gen_expr P k m G (ECall [x; f] l) = None.
Proof.
  intros P k m G x e k' f g l Cm L M T Fk Fb Fm Cg Kg. rewrite gen_call_eq. unfold resolve_path. rewrite M.
  cbn [parts_local]. rewrite L, T, Fk. cbn [parts_in]. rewrite Fb, Fm. destruct (gen_args P k m G l) as [[l' is]|]; [|done].
  cbn [last t_meth]. unfold call_ok. rewrite Cm, Cg, (bool_decide_true _ Kg).
  assert (c_name k' = c_name k) as ->. { apply find_class_spec in Fk. apply Fk. }
  rewrite (same_refl (c_name k)). cbn [orb andb negb]. by rewrite !andb_false_r.
Qed.
Print Assumptions C64_own_class_call_refused.
Example C64_own_class_call_refused_case :
  gen_expr prog_ok c_foo m_get [[(n_f, Ent (TCls n_Foo) false false)]] (ECall [n_f; n_set] [EInt 1]) = None
  /\ gen_expr prog_ok c_foo m_set [[(n_f, Ent (TCls n_Foo) false false)]] (ECall [n_f; n_set] [EInt 1]) <> None.
Proof.
  split; [|vm_compute; discriminate].
  by apply (C64_own_class_call_refused prog_ok c_foo m_get _ n_f (Ent (TCls n_Foo) false false) c_foo n_set m_set).
Qed.
(** A var that can be modified is not made from a const object. *)
Theorem C64_var_refused : forall P k m G n x e c,
  lookup_all x G = Some e -> e_const e = true -> is_member_name k x = false -> e_ty e = TCls c -> is_Some (find_class P c) ->
  gen_stmt P k m G (SVar n false (EPath [x])) = None.
Proof.
  intros P k m G n x e c L C M T Fk. cbn [gen_stmt gen_expr]. unfold resolve_path. rewrite M. cbn [parts_local]. rewrite L, T.
  unfold inner_const. cbn. rewrite ?C. cbn. rewrite ?bool_decide_false by discriminate. reflexivity.
Qed.
Print Assumptions C64_var_refused.
Example C64_var_refused_case :
  gen_stmt prog_ok (c_main [m_sum]) m_sum [method_scope (c_main [m_sum]) m_sum] (SVar n_x false (EPath [n_f])) = None
  /\ gen_stmt prog_ok (c_main [m_sum]) m_sum [method_scope (c_main [m_sum]) m_sum] (SVar n_x true (EPath [n_f])) <> None.
Proof. split; vm_compute; [reflexivity|discriminate]. Qed.

(** A const object is not passed to a parameter that is written with ref and can be modified. *)
Theorem C64_const_argument_refused : forall P k m G x e f g p ps l,
  lookup_all x G = Some e -> e_const e = true -> is_member_name k x = false ->
  find_member k f = None -> find_method k f = Some g -> m_params g = p :: ps -> p_ref p = true -> p_const p = false ->
  gen_expr P k m G (ECall [f] (EPath [x] :: l)) = None.
Proof.
  intros P k m G x e f g p ps l L C M Fb Fm Pg Rp Cp. rewrite gen_call_eq. unfold resolve_path at 1, is_member_name at 1.
  rewrite Fb, Fm. cbn [parts_in]. rewrite Fb, Fm. cbn [gen_args].
  assert (Ex : gen_expr P k m G (EPath [x]) = Some (EPath [x], Info (Some (e_ty e)) true (e_const e))).
  { cbn [gen_expr]. unfold resolve_path. rewrite M. cbn [parts_local]. rewrite L. cbn. by rewrite C. }
  rewrite Ex. destruct (gen_args P k m G l) as [[l' is]|]; [|done]. cbn [last t_meth]. rewrite Pg. cbn [args_ok i_ty i_const].
  rewrite Rp, Cp. cbn [negb andb]. by rewrite andb_false_r.
Qed.
Print Assumptions C64_const_argument_refused.
(** [void take(ref Foo f modify)]. *)
Definition m_take (r : bool) : meth :=
  Meth $"take" KMethod false None false [Par n_f (TCls n_Foo) false r] [SExpr (ECall [n_f; n_set] [EInt 7])].
Definition m_pass : meth :=
  Meth n_run KMethod false None false [Par n_g (TCls n_Foo) true false] [SExpr (ECall [$"take"] [EPath [n_g]])].
Example C64_const_argument_refused_case :
  gen_method [c_foo; c_main [m_take true; m_pass]] (c_main [m_take true; m_pass]) m_pass = None.
Proof.
  unfold gen_method. destruct (bool_decide _); [|done]. cbn [m_pass m_body gen_stmts gen_stmt].
  by rewrite (C64_const_argument_refused [c_foo; c_main [m_take true; m_pass]] (c_main [m_take true; m_pass]) m_pass _ n_g
             (Ent (TCls n_Foo) true true) $"take" (m_take true) (Par n_f (TCls n_Foo) false true) [] []).
Qed.

(** ** What accepted code keeps *)

(** A const variable or parameter holds the same after any accepted statements, whatever they call. *)
Theorem C64_const_variables_keep : forall n P k m G ss ss' G' h E h' E' fl x e,
  gen_stmts P k m G ss = Some (ss', G') -> in_step G E -> exec n P h E ss' = Ok (h', E', fl) ->
  lookup_all x G = Some e -> e_const e = true -> x ∉ declared ss ->
  lookup_all x E' = lookup_all x E.
Proof.
  intros n P k m G ss ss' G' h E h' E' fl x e HG I HE L C hx.
  assert (G <> []) as hG by (intros ->; discriminate).
  destruct (K_stmts_all n) as [_ K]. destruct (K _ _ _ _ _ _ _ _ _ _ _ _ HG hG I HE) as [X _]. by eapply ext_lookup.
Qed.
Print Assumptions C64_const_variables_keep.

(** A const number shows the same number. *)
Theorem C64_const_numbers_keep_partial : forall n P k m G ss ss' G' h E h' E' fl x e,
  gen_stmts P k m G ss = Some (ss', G') -> env_ok h G E -> exec n P h E ss' = Ok (h', E', fl) ->
  lookup_all x G = Some e -> e_const e = true -> e_ty e = TInt -> x ∉ declared ss ->
  shows h' E' x = shows h E x.
Proof.
  intros n P k m G ss ss' G' h E h' E' fl x e HG O HE L C T hx.
  unfold shows. rewrite (C64_const_variables_keep n P k m G ss ss' G' h E h' E' fl x e HG (env_step _ _ _ O) HE L C hx).
  destruct (env_lookup _ _ _ _ _ O L) as (d & -> & Hd). rewrite T in Hd. destruct Hd as [_ Hd]. unfold get_value. by rewrite Hd.
Qed.
Print Assumptions C64_const_numbers_keep_partial.

(** [c] is const and shows 4; the loop changes [a] and the object, and leaves [c]. *)
Definition body_keep : list stmt :=
  [SDecl TInt n_a false (Some (EInt 2)); SWhile (EPath [n_a]) [SExpr (EInc [n_a] (-1)); SExpr (ECall [n_f; n_set] [EPath [n_c]])]].
Definition scopes_keep : scopes := [[(n_c, Ent TInt true false); (n_f, Ent (TCls n_Foo) false false)]].
Definition env_keep : env := [[(n_c, Hnd 4 false None); (n_f, foo_ref)]].
Example C64_const_numbers_keep_case : exists ss' G' h' E' fl,
  gen_stmts prog_ok (c_main [m_sum]) m_sum scopes_keep body_keep = Some (ss', G')
  /\ exec 60 prog_ok heap_ok env_keep ss' = Ok (h', E', fl) /\ first_x heap_ok = Some 3 /\ first_x h' = Some 4
  /\ shows h' E' n_c = Some 4 /\ shows h' E' n_a = Some 0 /\ env_ok heap_ok scopes_keep env_keep.
Proof.
  do 5 eexists. split; [vm_compute; reflexivity|]. split; [vm_compute; reflexivity|]. repeat split; try (by vm_compute).
  constructor; [|constructor]. repeat constructor; cbn [fst snd e_ty holds]; auto.
  intros o [= <-]. eexists. split; [reflexivity|reflexivity].
Qed.

(** Running a method of an accepted program keeps the types of members; what it returns has the type it was declared with. *)
Theorem C64_types_keep_partial : forall n P h o x c k f m vs h' d,
  sober P -> well_typed P h -> h !! o = Some x -> o_ty x = TCls c -> find_class P c = Some k -> find_method k f = Some m ->
  suits h (m_params m) vs -> call n P h o f vs = Ok (h', d) ->
  well_typed P h' /\ (forall o y, h !! o = Some y -> exists y', h' !! o = Some y' /\ o_ty y' = o_ty y)
  /\ forall t, m_ret m = Some t -> holds h' d t.
Proof. intros n. destruct (typed_all n) as (_ & _ & T & _). exact T. Qed.
Print Assumptions C64_types_keep_partial.

(** A const method leaves every object of the program as it was, whatever it calls: no member of the object it is called on,
    of its parameters or of anything they reach changes, and no object is made. *)
Theorem C64_const_methods_partial : forall n P h o x c k f m vs h' d,
  sober P -> reserved P -> well_typed P h ->
  h !! o = Some x -> o_ty x = TCls c -> find_class P c = Some k -> find_method k f = Some m -> m_const m = true ->
  suits h (m_params m) vs -> call n P h o f vs = Ok (h', d) -> h' = h.
Proof. intros n. destruct (pure_all n) as (_ & _ & U & _). exact U. Qed.
Print Assumptions C64_const_methods_partial.

Lemma prog_sober : sober prog_ok.
Proof.
  intros k m Hk Hm. unfold prog_ok in Hk. apply elem_of_cons in Hk as [->|Hk].
  - cbn in Hm. apply elem_of_cons in Hm as [->|Hm]; [by vm_compute|]. apply elem_of_cons in Hm as [->|Hm]; [by vm_compute|].
    by apply elem_of_nil in Hm.
  - apply elem_of_cons in Hk as [->|Hk]; [|by apply elem_of_nil in Hk]. cbn in Hm.
    apply elem_of_cons in Hm as [->|Hm]; [by vm_compute|]. by apply elem_of_nil in Hm.
Qed.
Lemma prog_reserved : reserved prog_ok.
Proof.
  intros k m Hk Hm. unfold prog_ok in Hk. apply elem_of_cons in Hk as [->|Hk].
  - cbn in Hm. apply elem_of_cons in Hm as [->|Hm]; [discriminate|]. apply elem_of_cons in Hm as [->|Hm].
    + intros _. repeat split; try (by vm_compute).
    + by apply elem_of_nil in Hm.
  - apply elem_of_cons in Hk as [->|Hk]; [|by apply elem_of_nil in Hk]. cbn in Hm.
    apply elem_of_cons in Hm as [->|Hm]; [|by apply elem_of_nil in Hm].
    intros _. repeat split; try (by vm_compute). constructor; [done|constructor].
Qed.
Lemma heap_typed P : find_class P n_Foo = Some c_foo -> (exists l, find_class P n_Main = Some (c_main l)) -> well_typed P heap_ok.
Proof.
  intros F (l & M) o x H. destruct o as [|[|o]]; [| |discriminate]; injection H as <-.
  - exists n_Foo, c_foo. repeat split; auto. intros n b Hb. unfold find_member in Hb. cbn [c_foo c_members List.find b_name] in Hb.
    destruct (same n_x n) eqn:E; [|discriminate]. apply same_eq in E as <-. injection Hb as <-. exists (Hnd 3 false None). done.
  - exists n_Main, (c_main l). repeat split; auto. discriminate.
Qed.
Example C64_const_methods_case :
  accepted prog_ok = true /\ sober prog_ok /\ reserved prog_ok /\ well_typed prog_ok heap_ok
  /\ suits heap_ok (m_params m_sum) [foo_ref] /\ call 60 prog_ok heap_ok 1 n_sum [foo_ref] = Ok (heap_ok, Hnd 3 false None).
Proof.
  split; [by vm_compute|]. split; [exact prog_sober|]. split; [exact prog_reserved|].
  split; [apply heap_typed; [reflexivity|eexists; reflexivity]|]. split; [|by vm_compute].
  constructor; [|constructor]. intros o [= <-]. eexists. split; reflexivity.
Qed.
(** A method that can modify does change the object. *)
Example C64_modify_method_case : exists h' d,
  call 60 prog_ok heap_ok 0 n_set [Hnd 9 false None] = Ok (h', d) /\ first_x heap_ok = Some 3 /\ first_x h' = Some 9.
Proof. do 2 eexists. split; [vm_compute; reflexivity|]. split; by vm_compute. Qed.

(** ** Where const is not kept *)

(** Findings. Each program is accepted, and changes what its text calls const. *)

(** A const member is modified by any method that can modify: [private int x const; public modify void set(int v) { x = v; }]. *)
Definition c_sealed : cls := Cls n_Foo [Mem n_x TInt true] [m_set; m_get].
Theorem C64_const_members_refuted : exists P k b m h' d,
  accepted P = true /\ find_class P n_Foo = Some k /\ find_member k n_x = Some b /\ b_const b = true
  /\ find_method k n_set = Some m /\ m_kind m = KMethod
  /\ call 60 P heap_ok 0 n_set [Hnd 9 false None] = Ok (h', d) /\ first_x heap_ok = Some 3 /\ first_x h' = Some 9.
Proof.
  exists [c_sealed], c_sealed, (Mem n_x TInt true), m_set. do 2 eexists. split; [by vm_compute|]. split; [reflexivity|]. split; [reflexivity|]. split; [reflexivity|]. split; [reflexivity|]. split; [reflexivity|]. 
  split; [vm_compute; reflexivity|]. split; vm_compute; reflexivity.
Qed.
Print Assumptions C64_const_members_refuted.

(** A const method modifies a member when it writes 'this': [public void run() const { this.x = 9; }]. *)
Definition m_this : meth := Meth n_run KMethod true None false [] [SExpr (EAssign [str_this; n_x] (EInt 9))].
Theorem C64_const_method_this_refuted : exists P k m h' d,
  accepted P = true /\ find_class P n_Foo = Some k /\ find_method k n_run = Some m /\ m_const m = true
  /\ call 60 P heap_ok 0 n_run [] = Ok (h', d) /\ first_x heap_ok = Some 3 /\ first_x h' = Some 9.
Proof.
  exists [Cls n_Foo [Mem n_x TInt false] [m_this]], (Cls n_Foo [Mem n_x TInt false] [m_this]), m_this. do 2 eexists.
  split; [by vm_compute|]. split; [reflexivity|]. split; [reflexivity|]. split; [reflexivity|]. 
  split; [vm_compute; reflexivity|]. split; vm_compute; reflexivity.
Qed.
Print Assumptions C64_const_method_this_refuted.

(** A const parameter is modified through another name: [void run(Foo f const) { Foo g = f; g.set(9); }]. *)
Definition m_alias : meth :=
  Meth n_run KMethod true None false [Par n_f (TCls n_Foo) true true]
    [SDecl (TCls n_Foo) n_g false (Some (EPath [n_f])); SExpr (ECall [n_g; n_set] [EInt 9])].
Theorem C64_const_parameter_alias_refuted : exists P k m p h' d,
  accepted P = true /\ find_class P n_Main = Some k /\ find_method k n_run = Some m /\ m_params m = [p] /\ p_const p = true
  /\ call 60 P heap_ok 1 n_run [foo_ref] = Ok (h', d) /\ first_x heap_ok = Some 3 /\ first_x h' = Some 9.
Proof.
  exists [c_foo; c_main [m_alias]], (c_main [m_alias]), m_alias, (Par n_f (TCls n_Foo) true true). do 2 eexists. split; [by vm_compute|]. split; [reflexivity|]. split; [reflexivity|]. split; [reflexivity|]. split; [reflexivity|]. 
  split; [vm_compute; reflexivity|]. split; vm_compute; reflexivity.
Qed.
Print Assumptions C64_const_parameter_alias_refuted.

(** A const parameter is passed on to a parameter that can be modified, when that one is not written with ref:
    [void take(Foo f modify) { f.set(7); } void run(Foo g const) { take(g); }]. *)
Theorem C64_const_argument_refuted : exists P k m p h' d,
  accepted P = true /\ find_class P n_Main = Some k /\ find_method k n_run = Some m /\ m_params m = [p] /\ p_const p = true
  /\ call 60 P heap_ok 1 n_run [foo_ref] = Ok (h', d) /\ first_x heap_ok = Some 3 /\ first_x h' = Some 7.
Proof.
  exists [c_foo; c_main [m_take false; m_pass]], (c_main [m_take false; m_pass]), m_pass, (Par n_g (TCls n_Foo) true false). do 2 eexists. split; [by vm_compute|]. split; [reflexivity|]. split; [reflexivity|]. split; [reflexivity|]. split; [reflexivity|]. 
  split; [vm_compute; reflexivity|]. split; vm_compute; reflexivity.
Qed.
Print Assumptions C64_const_argument_refuted.

(** A const number made with new changes with the variable it was copied from:
    [int a = new int(3); int c const = a; a = 9;] *)
Definition body_number : list stmt :=
  [SDecl TInt n_a false (Some (ENew TInt [EInt 3])); SDecl TInt n_c true (Some (EPath [n_a]))].
Theorem C64_const_numbers_refuted : exists m b b2 G h E h2 E2,
  gen_stmts [] (c_main [m]) m [[]] body_number = Some (b, G) /\ exec 60 [] [] [[]] b = Ok (h, E, FNormal)
  /\ (exists e, lookup_all n_c G = Some e /\ e_const e = true)
  /\ gen_stmts [] (c_main [m]) m G [SExpr (EAssign [n_a] (EInt 9))] = Some (b2, G) /\ exec 60 [] h E b2 = Ok (h2, E2, FNormal)
  /\ shows h E n_c = Some 3 /\ shows h2 E2 n_c = Some 9.
Proof.
  exists m_sum. do 7 eexists. split; [vm_compute; reflexivity|]. split; [vm_compute; reflexivity|].
  split; [eexists; split; vm_compute; reflexivity|]. split; [vm_compute; reflexivity|]. split; [vm_compute; reflexivity|].
  split; vm_compute; reflexivity.
Qed.
Print Assumptions C64_const_numbers_refuted.

(** A const method modifies a member that was made with new: [public void run() const { int a = x; a = 9; }]. *)
Definition m_copy : meth :=
  Meth n_run KMethod true None false [] [SDecl TInt n_a false (Some (EPath [n_x])); SExpr (EAssign [n_a] (EInt 9))].
Theorem C64_const_method_copy_refuted : exists P k m h h' d d',
  accepted P = true /\ find_class P n_Foo = Some k /\ find_method k n_run = Some m /\ m_const m = true
  /\ call 60 P heap_ok 0 n_set [] = Ok (h, d) /\ call 60 P h 0 n_run [] = Ok (h', d')
  /\ first_x h = Some 3 /\ first_x h' = Some 9.
Proof.
  set (m_new := Meth n_set KMethod false None false [] [SExpr (EAssign [n_x] (ENew TInt [EInt 3]))]).
  exists [Cls n_Foo [Mem n_x TInt false] [m_new; m_copy]], (Cls n_Foo [Mem n_x TInt false] [m_new; m_copy]), m_copy.
  do 4 eexists. split; [by vm_compute|]. split; [reflexivity|]. split; [reflexivity|]. split; [reflexivity|].
  split; [vm_compute; reflexivity|]. split; [vm_compute; reflexivity|]. split; vm_compute; reflexivity.
Qed.
Print Assumptions C64_const_method_copy_refuted.
