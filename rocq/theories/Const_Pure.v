(** Const methods leave all objects as they are. *)
From Verif Require Import Base Base_Proofs Const_Model Const_Spec Const_Proofs Const_Locals Const_Types.
Open Scope Z_scope.

(** Variables of a class are const, apart from 'this'. *)
Definition obj_const (G : scopes) : Prop :=
  forall x e, lookup_all x G = Some e -> e_ty e <> TInt -> x = str_this \/ e_const e = true.

Lemma obj_declare s r n q : obj_const (s :: r) -> (e_ty q = TInt \/ e_const q = true) -> obj_const (((n, q) :: s) :: r).
Proof.
  intros H Hq x e. cbn [lookup_all]. rewrite assoc_cons. destruct (same n x).
  - intros [= <-] Ht. right. by destruct Hq.
  - exact (H x e).
Qed.
Lemma obj_block G : obj_const G -> obj_const ([] :: G).
Proof. intros H x e L. exact (H x e L). Qed.
Lemma obj_method k m : Forall (fun p => p_ty p <> TInt -> p_const p = true) (m_params m) -> obj_const [method_scope k m].
Proof.
  intros F x e. cbn [lookup_all]. unfold method_scope. rewrite assoc_app.
  destruct (assoc x (rev (param_entries (m_params m)))) as [v|] eqn:A.
  - intros [= <-] Ht. right. unfold assoc in A. destruct (List.find _ _) as [q|] eqn:Fd; [|discriminate]. injection A as <-.
    apply List.find_some in Fd as [Hin _]. apply in_rev in Hin. unfold param_entries in Hin. apply in_map_iff in Hin as (p & <- & Hp).
    cbn [snd e_ty e_const] in *. apply elem_of_list_In in Hp. exact (proj1 (Forall_forall _ _) F p Hp Ht).
  - rewrite assoc_cons. destruct (same str_this x) eqn:E; [|discriminate]. intros _ _. left. symmetry. by apply same_eq.
Qed.

Lemma head_this p x r : head_is str_this p = false -> p = x :: r -> x <> str_this.
Proof. intros H -> ->. cbn [head_is] in H. by rewrite same_refl in H. Qed.

(** What a const method may assign to is a variable of the atomic type. *)
Lemma inc_local P k m G p ps q :
  m_const m = true -> m_kind m = KMethod -> obj_const G -> head_is str_this p = false ->
  resolve_path P k m G p = Some ps -> last ps = Some q -> inc_ok m ps = true ->
  exists n e, p = [n] /\ path_of ps = [n] /\ lookup_all n G = Some e /\ t_ty q = Some (e_ty e) /\ e_ty e = TInt.
Proof.
  intros Mc Mk OC Hd R Lq A. unfold inc_ok, allow_const_modify in A. rewrite bool_decide_true in A by done.
  cbn [negb andb] in A. rewrite andb_true_r in A. apply negb_true_iff in A.
  destruct p as [|x r]; [discriminate|]. pose proof (head_this _ _ _ Hd eq_refl) as hx.
  unfold resolve_path in R. destruct (is_member_name k x).
  - destruct (parts_in P k (x :: r)) as [qs|]; [|discriminate]. injection R as <-. cbn [any_const existsb t_const] in A.
    by rewrite Mc in A.
  - cbn [parts_local] in R. destruct (lookup_all x G) as [e|] eqn:L; [|discriminate].
    assert (Te : e_const e = false -> e_ty e = TInt).
    { intros hc. destruct (decide (e_ty e = TInt)) as [|hn]; [done|]. destruct (OC x e L hn) as [|hc']; [done|congruence]. }
    destruct r as [|y r].
    + injection R as <-. cbn [any_const existsb t_const orb] in A. rewrite orb_false_r in A. injection Lq as <-.
      exists x, e. repeat split; auto.
    + destruct (e_ty e) as [|c] eqn:Tc; [discriminate|]. destruct (find_class P c) as [k'|]; [|discriminate].
      destruct (parts_in P k' (y :: r)) as [qs|]; [|discriminate]. injection R as <-. cbn [any_const existsb t_const] in A.
      apply orb_false_iff in A as [A _]. specialize (Te A). discriminate.
Qed.
(** What a const method may call is a const method. *)
Lemma call_const P k m G p ps q ow f :
  m_const m = true -> obj_const G -> head_is str_this p = false ->
  resolve_path P k m G p = Some ps -> last ps = Some q -> t_meth q = Some (ow, f) -> call_ok k m ps ow f = true -> m_const f = true.
Proof.
  intros Mc OC Hd R Lq Mq A. unfold call_ok in A. apply andb_true_iff in A as [_ A].
  apply negb_true_iff in A. cut (any_const ps = true). { intros hc. rewrite hc in A. by apply negb_false_iff in A. }
  destruct p as [|x r]; [discriminate|]. pose proof (head_this _ _ _ Hd eq_refl) as hx.
  unfold resolve_path in R. destruct (is_member_name k x).
  - destruct (parts_in P k (x :: r)) as [qs|]; [|discriminate]. injection R as <-. cbn [any_const existsb t_const]. by rewrite Mc.
  - cbn [parts_local] in R. destruct (lookup_all x G) as [e|] eqn:L; [|discriminate].
    destruct r as [|y r]; [injection R as <-; injection Lq as <-; discriminate|].
    destruct (e_ty e) as [|c] eqn:Tc; [discriminate|]. destruct (find_class P c) as [k'|]; [|discriminate].
    destruct (parts_in P k' (y :: r)) as [qs|]; [|discriminate]. injection R as <-. cbn [any_const existsb t_const].
    destruct (OC x e L) as [|hc]; [rewrite Tc; discriminate|done|by rewrite hc].
Qed.

Lemma assign_heap h l r t h' d : holds h l t -> t = TInt -> assign h l r = (h', d) -> h_isref r = false -> h' = h.
Proof. intros Hl -> A Hr. unfold assign in A. rewrite Hr in A. destruct Hl as [_ Hl]. rewrite Hl in A. by injection A as <- <-. Qed.
Lemma assign_heap' h l r h' d : h_ref l = None -> assign h l r = (h', d) -> h' = h.
Proof. unfold assign. intros ->. destruct (h_isref r); by intros [= <- <-]. Qed.

(** A const method, seen from inside. *)
Definition inside (P : prog) (k : cls) (m : meth) (G : scopes) : Prop :=
  find_class P (c_name k) = Some k /\ this_ok k G /\ m_const m = true /\ m_kind m = KMethod /\ obj_const G.

Definition U_expr (n : nat) : Prop :=
  forall P k m G h E e e' i h' E' d,
    sober P -> reserved P -> inside P k m G -> gen_expr P k m G e = Some (e', i) ->
    no_new_int e = true -> no_new e = true -> mentions str_this e = false ->
    well_typed P h -> env_ok h G E -> eval n P h E e' = Ok (h', E', d) -> h' = h.
Definition U_args (n : nat) : Prop :=
  forall P k m G h E l l' is h' E' ds,
    sober P -> reserved P -> inside P k m G -> gen_args P k m G l = Some (l', is) ->
    forallb no_new_int l = true -> forallb no_new l = true -> existsb (mentions str_this) l = false ->
    well_typed P h -> env_ok h G E -> eval_args n P h E l' = Ok (h', E', ds) -> h' = h.
Definition U_call (n : nat) : Prop :=
  forall P h o x c k f m vs h' d,
    sober P -> reserved P -> well_typed P h -> h !! o = Some x -> o_ty x = TCls c -> find_class P c = Some k ->
    find_method k f = Some m -> m_const m = true -> suits h (m_params m) vs -> call n P h o f vs = Ok (h', d) -> h' = h.
Definition U_stmt (n : nat) : Prop :=
  forall P k m G h E s s' G' h' E' fl,
    sober P -> reserved P -> inside P k m G -> G <> [] -> gen_stmt P k m G s = Some (s', G') ->
    all_exprs no_new_int s = true -> all_exprs no_new s = true -> all_exprs (fun e => negb (mentions str_this e)) s = true ->
    all_decls var_fresh s = true -> all_decls object_const s = true ->
    well_typed P h -> env_ok h G E -> exec1 n P h E s' = Ok (h', E', fl) -> h' = h.
Definition U_stmts (n : nat) : Prop :=
  forall P k m G h E ss ss' G' h' E' fl,
    sober P -> reserved P -> inside P k m G -> G <> [] -> gen_stmts P k m G ss = Some (ss', G') ->
    forallb (all_exprs no_new_int) ss = true -> forallb (all_exprs no_new) ss = true ->
    forallb (all_exprs (fun e => negb (mentions str_this e))) ss = true ->
    forallb (all_decls var_fresh) ss = true -> forallb (all_decls object_const) ss = true ->
    well_typed P h -> env_ok h G E -> exec n P h E ss' = Ok (h', E', fl) -> h' = h.

Lemma U_step_expr n : U_expr n -> U_args n -> U_call n -> U_expr (S n).
Proof.
  intros IHe IHa IHc P k m G h E e e' i h' E' d So Re In HG NI NN NT W O HE.
  pose proof In as (Fk & Th & Mc & Mk & OC). destruct (typed_all n) as (TE & TA & _).
  destruct e as [z|p|a b|p a|p dl|p l|t l]; cbn [no_new_int no_new mentions] in NI, NN, NT.
  - cbn [gen_expr] in HG. injection HG as <- <-. cbn [eval] in HE. by injection HE as <- <- <-.
  - cbn [gen_expr] in HG. destruct (resolve_path P k m G p) as [ps|] eqn:R; [|discriminate].
    destruct (last ps) as [q|]; [|discriminate]. destruct (t_meth q); [discriminate|]. injection HG as <- <-.
    cbn [eval] in HE. destruct (loc_of h E (path_of ps)) as [l|]; [|discriminate].
    destruct (read_loc h E l) as [d0|]; [|discriminate]. by injection HE as <- <- <-.
  - cbn [gen_expr] in HG. destruct (gen_expr P k m G a) as [[a' ia]|] eqn:Ga; [|discriminate].
    destruct (gen_expr P k m G b) as [[b' ib]|] eqn:Gb; [|discriminate].
    destruct (_ && _); [|discriminate]. injection HG as <- <-.
    apply andb_true_iff in NI as [I1 I2]. apply andb_true_iff in NN as [N1 N2]. apply orb_false_iff in NT as [T1 T2].
    cbn [eval] in HE. apply rbind_ok in HE as ([[h1 E1] d1] & H1 & HE). cbn [fst snd] in HE.
    apply rbind_ok in HE as ([[h2 E2] d2] & H2 & HE). cbn [fst snd] in HE. injection HE as <- <- <-.
    destruct (TE _ _ _ _ _ _ _ _ _ _ _ _ So Fk Th Ga I1 W O H1) as (W1 & _ & O1 & _).
    rewrite (IHe _ _ _ _ _ _ _ _ _ _ _ _ So Re In Gb I2 N2 T2 W1 O1 H2).
    exact (IHe _ _ _ _ _ _ _ _ _ _ _ _ So Re In Ga I1 N1 T1 W O H1).
  - cbn [gen_expr] in HG. destruct (resolve_path P k m G p) as [ps|] eqn:R; [|discriminate].
    destruct (gen_expr P k m G a) as [[a' ia]|] eqn:Ga; [|discriminate].
    destruct (last ps) as [q|] eqn:Lq; [|discriminate]. destruct (t_meth q); [discriminate|].
    destruct (t_ty q) as [t|] eqn:Tq; [|discriminate].
    destruct (assign_ok m ps && _) eqn:A; [|discriminate]. injection HG as <- <-. apply andb_true_iff in A as [A A2].
    apply bool_decide_eq_true in A2. apply orb_false_iff in NT as [T1 T2].
    destruct (inc_local _ _ _ _ _ _ _ Mc Mk OC T1 R Lq (assign_inc _ _ A)) as (x & e & -> & Ep & L & Te & TI).
    assert (t = TInt) as -> by congruence.
    rewrite Ep in HE. cbn [eval] in HE. destruct (loc_of h E [x]) as [l|] eqn:Ll; [|discriminate].
    cbn [loc_of] in Ll. destruct (lookup_all x E); [|discriminate]. injection Ll as <-.
    apply rbind_ok in HE as ([[h1 E1] d1] & H1 & HE). cbn [fst snd] in HE.
    destruct (TE _ _ _ _ _ _ _ _ _ _ _ _ So Fk Th Ga NI W O H1) as (W1 & _ & O1 & D1).
    assert (Sl : slot P h1 G (LVar x) TInt) by (exists e; auto).
    destruct (slot_read _ _ _ _ _ _ W1 O1 Sl) as (d0 & RL & Hd0). rewrite RL in HE.
    destruct (assign h1 d0 d1) as [h2 d2] eqn:AS. cbn [write_loc] in HE. injection HE as <- <- <-.
    destruct Hd0 as [_ Hd0]. rewrite (assign_heap' _ _ _ _ _ Hd0 AS).
    exact (IHe _ _ _ _ _ _ _ _ _ _ _ _ So Re In Ga NI NN T2 W O H1).
  - cbn [gen_expr] in HG. destruct (resolve_path P k m G p) as [ps|] eqn:R; [|discriminate].
    destruct (last ps) as [q|] eqn:Lq; [|discriminate]. destruct (t_meth q); [discriminate|].
    destruct (inc_ok m ps && _) eqn:A; [|discriminate]. injection HG as <- <-. apply andb_true_iff in A as [A A2].
    destruct (inc_local _ _ _ _ _ _ _ Mc Mk OC NT R Lq A) as (x & e & -> & Ep & L & Te & TI).
    rewrite Ep in HE. cbn [eval] in HE. destruct (loc_of h E [x]) as [l|] eqn:Ll; [|discriminate].
    cbn [loc_of] in Ll. destruct (lookup_all x E); [|discriminate]. injection Ll as <-.
    assert (Sl : slot P h G (LVar x) TInt) by (exists e; auto).
    destruct (slot_read _ _ _ _ _ _ W O Sl) as (d0 & RL & Hd0). rewrite RL in HE.
    destruct (assign h d0 _) as [h2 d2] eqn:AS. cbn [write_loc] in HE. injection HE as <- <- <-.
    destruct Hd0 as [_ Hd0]. exact (assign_heap' _ _ _ _ _ Hd0 AS).
  - rewrite gen_call_eq in HG. destruct (resolve_path P k m G p) as [ps|] eqn:R; [|discriminate].
    destruct (gen_args P k m G l) as [[l' is]|] eqn:Gl; [|discriminate].
    destruct (last ps) as [q|] eqn:Lq; [|discriminate]. destruct (t_meth q) as [[ow f]|] eqn:Mq; [|discriminate].
    destruct (_ && _) eqn:A; [|discriminate]. injection HG as <- <-. apply andb_true_iff in A as [A A2].
    apply orb_false_iff in NT as [T1 T2].
    cbn [eval] in HE. apply rbind_ok in HE as ([[h1 E1] ds] & H1 & HE). cbn [fst snd] in HE.
    destruct (TA _ _ _ _ _ _ _ _ _ _ _ _ So Fk Th Gl NI W O H1) as (W1 & _ & O1 & D1).
    destruct (rev (path_of ps)) as [|fn rp] eqn:Rp; [discriminate|].
    destruct (loc_of h1 E1 (rev rp)) as [lo|] eqn:L; [|discriminate].
    destruct (resolve_call _ _ _ _ _ _ _ _ _ _ _ _ _ _ W1 O1 Fk Th R Lq Mq Rp L) as ((k' & Fk' & Fm) & Sl).
    destruct (slot_read _ _ _ _ _ _ W1 O1 Sl) as (d0 & RL & Hd0). rewrite RL in HE.
    destruct (h_ref d0) as [o|] eqn:Eo; [|discriminate]. apply rbind_ok in HE as ([h2 d2] & H2 & HE). injection HE as <- <- <-.
    destruct (Hd0 o Eo) as (x & Hx & Tx). cbn [fst].
    rewrite (IHc _ _ _ _ _ _ _ _ _ _ _ So Re W1 Hx Tx Fk' Fm (call_const _ _ _ _ _ _ _ _ _ Mc OC T1 R Lq Mq A2) (args_suit _ _ _ _ A D1) H2).
    exact (IHa _ _ _ _ _ _ _ _ _ _ _ _ So Re In Gl NI NN T2 W O H1).
  - discriminate.
Qed.

Lemma U_step_args n : U_expr n -> U_args n -> U_args (S n).
Proof.
  intros IHe IHa P k m G h E l l' is h' E' ds So Re In HG NI NN NT W O HE.
  pose proof In as (Fk & Th & _). destruct (typed_all n) as (TE & _).
  destruct l as [|a r]; cbn [gen_args] in HG.
  - injection HG as <- <-. cbn [eval_args] in HE. by injection HE as <- <- <-.
  - destruct (gen_expr P k m G a) as [[a' ia]|] eqn:Ga; [|discriminate].
    destruct (gen_args P k m G r) as [[r' ir]|] eqn:Gr'; [|discriminate]. injection HG as <- <-.
    cbn [forallb existsb] in NI, NN, NT.
    apply andb_true_iff in NI as [I1 I2]. apply andb_true_iff in NN as [N1 N2]. apply orb_false_iff in NT as [T1 T2].
    cbn [eval_args] in HE. apply rbind_ok in HE as ([[h1 E1] d1] & H1 & HE). cbn [fst snd] in HE.
    apply rbind_ok in HE as ([[h2 E2] d2] & H2 & HE). cbn [fst snd] in HE. injection HE as <- <- <-.
    destruct (TE _ _ _ _ _ _ _ _ _ _ _ _ So Fk Th Ga I1 W O H1) as (W1 & _ & O1 & _).
    rewrite (IHa _ _ _ _ _ _ _ _ _ _ _ _ So Re In Gr' I2 N2 T2 W1 O1 H2).
    exact (IHe _ _ _ _ _ _ _ _ _ _ _ _ So Re In Ga I1 N1 T1 W O H1).
Qed.

Lemma U_step_call n : U_stmts n -> U_call (S n).
Proof.
  intros IHs P h o x c k f m vs h' d So Re W Hx Tx Fk Fm Mc Su HC. cbn [call] in HC. rewrite Hx, Tx, Fk, Fm in HC.
  destruct (gen_method P k m) as [b|] eqn:GM; [|discriminate].
  destruct (bind_params h (m_params m) vs _) as [s|] eqn:B; [|discriminate].
  apply rbind_ok in HC as ([[h1 E1] fl] & H1 & HC). cbn [fst snd] in HC. injection HC as <- <-.
  destruct (find_class_spec _ _ _ Fk) as [Ik Nk]. destruct (find_method_spec _ _ _ Fm) as [Im _].
  assert (Fk2 : find_class P (c_name k) = Some k) by congruence. assert (Tx2 : o_ty x = TCls (c_name k)) by congruence.
  destruct (gen_method_inv _ _ _ _ GM) as (ND & G' & GS). destruct (So k m Ik Im) as [S1 S2].
  destruct (Re k m Ik Im Mc) as (Mk & R1 & R2 & R3 & R4).
  refine (IHs _ _ _ _ _ _ _ _ _ _ _ _ So Re _ _ GS S1 R1 R2 S2 R3 W (call_env _ _ _ _ _ _ _ _ _ W Hx Tx2 GM Su B) H1); [|discriminate].
  repeat split; auto; [by apply method_this|by apply obj_method].
Qed.

Lemma declaration_pure n P k m sc r h a t nm q e e' i h' E' fl :
  U_expr n -> sober P -> reserved P -> inside P k m (((nm, q) :: sc) :: r) ->
  gen_expr P k m (((nm, q) :: sc) :: r) e = Some (e', i) -> (e_ty q = TInt \/ e_const q = true) ->
  no_new_int e = true -> no_new e = true -> mentions str_this e = false ->
  well_typed P h -> env_ok h (sc :: r) (a :: t) ->
  (let! x := eval n P h (((nm, fresh (e_ty q)) :: a) :: t) e' in
   match read_loc (fst (fst x)) (snd (fst x)) (LVar nm) with
   | None => UB
   | Some d =>
       let (h2, d') := assign (fst (fst x)) d (snd x) in
       let (h3, E3) := write_loc h2 (snd (fst x)) (LVar nm) d' in Ok (h3, E3, FNormal)
   end) = Ok (h', E', fl) -> h' = h.
Proof.
  intros IHe So Re In Ge Hq NI NN NT W O H. pose proof In as (Fk & Th & _). destruct (typed_all n) as (TE & _).
  apply rbind_ok in H as ([[h1 E1] d1] & H1 & H). cbn [fst snd] in H.
  assert (O0 : env_ok h (((nm, q) :: sc) :: r) (((nm, fresh (e_ty q)) :: a) :: t)).
  { apply Forall2_cons in O as [O1 O2]. constructor; [|exact O2]. constructor; [|exact O1]. split; [reflexivity|]. apply holds_fresh. }
  destruct (TE _ _ _ _ _ _ _ _ _ _ _ _ So Fk Th Ge NI W O0 H1) as (W1 & G1 & O1 & _).
  assert (Lq : lookup_all nm (((nm, q) :: sc) :: r) = Some q) by (cbn [lookup_all]; by rewrite assoc_cons, same_refl).
  destruct (env_lookup _ _ _ _ _ O1 Lq) as (d0 & RL & Hd0). cbn [read_loc] in H. rewrite RL in H.
  destruct (assign h1 d0 d1) as [h2 d2] eqn:AS. cbn [write_loc] in H. injection H as <- _ _.
  assert (Hr : h_ref d0 = None).
  { destruct Hq as [Hq|Hq].
    - rewrite Hq in Hd0. apply Hd0.
    - destruct (K_both n) as [KE _].
      pose proof (KE _ _ _ _ _ _ _ _ _ _ _ _ _ Ge (env_step _ _ _ O0) (sub_refl _) H1) as K.
      rewrite (keep_lookup _ _ _ _ _ K Lq Hq) in RL. cbn [lookup_all] in RL. rewrite assoc_cons, same_refl in RL.
      injection RL as <-. by destruct (e_ty q). }
  rewrite (assign_heap' _ _ _ _ _ Hr AS). exact (IHe _ _ _ _ _ _ _ _ _ _ _ _ So Re In Ge NI NN NT W O0 H1).
Qed.

Lemma inside_declare P k m s r n q : inside P k m (s :: r) -> same n str_this = false -> (e_ty q = TInt \/ e_const q = true) ->
  inside P k m (((n, q) :: s) :: r).
Proof.
  intros (Fk & Th & Mc & Mk & OC) hn Hq. repeat split; auto; [by apply this_declare|by apply obj_declare].
Qed.
Lemma inside_block P k m G : inside P k m G -> inside P k m ([] :: G).
Proof. intros (Fk & Th & Mc & Mk & OC). repeat split; auto. Qed.
Lemma inside_stmt P k m G s s' G' : inside P k m G -> all_decls var_fresh s = true -> all_decls object_const s = true ->
  gen_stmt P k m G s = Some (s', G') -> inside P k m G'.
Proof.
  intros In F C H. destruct s as [e|t n c [e|]|n c e|e a b|e b|[e|]].
  - cbn [gen_stmt] in H. destruct (gen_expr P k m G e) as [[e' i]|]; [|discriminate]. by injection H as _ <-.
  - cbn [gen_stmt] in H. destruct (ty_ok P t); [|discriminate]. destruct (declare G n _) as [G1|] eqn:D; [|discriminate].
    destruct (gen_expr P k m G1 e) as [[e' i]|]; [|discriminate]. destruct (bool_decide _); [|discriminate].
    injection H as _ <-. apply declare_inv in D as (sc & r & -> & ->). apply inside_declare; [exact In| |].
    + cbn [all_decls var_fresh] in F. apply andb_true_iff in F as [F _]. by apply negb_true_iff in F.
    + cbn [all_decls object_const] in C. cbn [e_ty e_const]. destruct t; auto.
  - cbn [gen_stmt] in H. destruct (ty_ok P t); [|discriminate]. destruct (declare G n _) as [G1|] eqn:D; [|discriminate].
    injection H as _ <-. apply declare_inv in D as (sc & r & -> & ->). apply inside_declare; [exact In| |].
    + cbn [all_decls var_fresh] in F. apply andb_true_iff in F as [F _]. by apply negb_true_iff in F.
    + cbn [all_decls object_const] in C. cbn [e_ty e_const]. destruct t; auto.
  - cbn [gen_stmt] in H. destruct (gen_expr P k m G e) as [[e' i]|]; [|discriminate]. destruct (i_ty i) as [t|]; [|discriminate].
    destruct (_ && _); [discriminate|]. destruct (declare G n _) as [G1|] eqn:D; [|discriminate].
    injection H as _ <-. apply declare_inv in D as (sc & r & -> & ->). apply inside_declare; [exact In| |].
    + cbn [all_decls var_fresh] in F. apply andb_true_iff in F as [F _]. by apply negb_true_iff in F.
    + right. exact C.
  - rewrite gen_if_eq in H. destruct (gen_expr P k m G e) as [[e' i]|]; [|discriminate].
    destruct (gen_stmts P k m _ a) as [[a' ?]|]; [|discriminate]. destruct (gen_stmts P k m _ b) as [[b' ?]|]; [|discriminate].
    by injection H as _ <-.
  - rewrite gen_while_eq in H. destruct (gen_expr P k m G e) as [[e' i]|]; [|discriminate].
    destruct (gen_stmts P k m _ b) as [[b' ?]|]; [|discriminate]. by injection H as _ <-.
  - cbn [gen_stmt] in H. destruct (gen_expr P k m G e) as [[e' i]|]; [|discriminate]. destruct (_ && _); [|discriminate].
    by injection H as _ <-.
  - cbn [gen_stmt] in H. destruct (bool_decide _); [|discriminate]. by injection H as _ <-.
Qed.

Lemma U_step_stmt n : U_expr n -> U_stmt n -> U_stmts n -> U_stmt (S n).
Proof.
  intros KE IH1 IHs P k m G h E s s' G' h' E' fl So Re In hG HG NI NN NT VF OB W O HE.
  pose proof HG as HG0. pose proof (inside_stmt _ _ _ _ _ _ _ In VF OB HG) as In'.
  pose proof In as (Fk & Th & _). destruct (typed_all n) as (TE & _ & _ & TS & TSS).
  destruct s as [e|t nm c [e|]|nm c e|e a b|e b|[e|]]; cbn [all_exprs all_decls] in NI, NN, NT, VF, OB.
  - apply negb_true_iff in NT. cbn [gen_stmt] in HG. destruct (gen_expr P k m G e) as [[e' i]|] eqn:Ge; [|discriminate]. injection HG as <- <-.
    cbn [exec1] in HE. apply rbind_ok in HE as ([[h1 E1] d1] & H1 & HE). injection HE as <- <- <-.
    by eapply (KE _ _ _ _ _ _ _ _ _ _ _ _ So Re In Ge).
  - apply negb_true_iff in NT. cbn [gen_stmt] in HG. destruct (ty_ok P t); [|discriminate].
    destruct (declare G nm _) as [G1|] eqn:D; [|discriminate].
    destruct (gen_expr P k m G1 e) as [[e' i]|] eqn:Ge; [|discriminate]. destruct (bool_decide _) eqn:B; [|discriminate].
    injection HG as <- <-. apply declare_inv in D as (sc & r & -> & ->).
    destruct E as [|a t0]; [by apply Forall2_cons_nil_inv in O|]. cbn [exec1] in HE.
    destruct (assoc nm a); [discriminate|].
    eapply (declaration_pure n P k m sc r h a t0 nm (Ent t c false)); eauto.
    cbn [e_ty e_const object_const] in *. destruct t; auto.
  - cbn [gen_stmt] in HG. destruct (ty_ok P t); [|discriminate].
    destruct (declare G nm _) as [G1|] eqn:D; [|discriminate]. injection HG as <- <-.
    apply declare_inv in D as (sc & r & -> & ->).
    destruct E as [|a t0]; [by apply Forall2_cons_nil_inv in O|]. cbn [exec1] in HE.
    destruct (assoc nm a); [discriminate|]. by injection HE as <- <- <-.
  - apply negb_true_iff in NT. cbn [gen_stmt] in HG. destruct (gen_expr P k m G e) as [[e' i]|] eqn:Ge; [|discriminate].
    destruct (i_ty i) as [t|] eqn:Ti; [|discriminate]. destruct (_ && _); [discriminate|].
    destruct (declare G nm _) as [G1|] eqn:D; [|discriminate].
    injection HG as <- <-. apply declare_inv in D as (sc & r & -> & ->).
    destruct E as [|a t0]; [by apply Forall2_cons_nil_inv in O|]. cbn [exec1] in HE.
    destruct (assoc nm a); [discriminate|]. unfold var_fresh in VF. apply andb_true_iff in VF as [VF VM].
    apply negb_true_iff in VF, VM. rewrite <- (gen_weaken P k m sc r nm (Ent t c false) e VM) in Ge.
    eapply (declaration_pure n P k m sc r h a t0 nm (Ent t c false)); eauto.
  - rewrite gen_if_eq in HG. destruct (gen_expr P k m G e) as [[e' i]|] eqn:Ge; [|discriminate].
    destruct (gen_stmts P k m ([] :: G) a) as [[a' Ga]|] eqn:GA; [|discriminate].
    destruct (gen_stmts P k m ([] :: G) b) as [[b' Gb]|] eqn:GB; [|discriminate]. injection HG as <- <-.
    apply andb_true_iff in NI as [NI I3]. apply andb_true_iff in NI as [I1 I2].
    apply andb_true_iff in NN as [NN N3]. apply andb_true_iff in NN as [N1 N2].
    apply andb_true_iff in NT as [NT T3]. apply andb_true_iff in NT as [T1 T2]. apply negb_true_iff in T1.
    apply andb_true_iff in VF as [V1 V2]. apply andb_true_iff in OB as [B1 B2].
    cbn [exec1] in HE. apply rbind_ok in HE as ([[h1 E1] d1] & H1 & HE). cbn [fst snd] in HE.
    apply rbind_ok in HE as ([[h2 E2] f2] & H2 & HE). cbn [fst snd] in HE. injection HE as <- <- <-.
    destruct (TE _ _ _ _ _ _ _ _ _ _ _ _ So Fk Th Ge I1 W O H1) as (W1 & G1 & O1 & _).
    rewrite <- (KE _ _ _ _ _ _ _ _ _ _ _ _ So Re In Ge I1 N1 T1 W O H1).
    assert (O2 : env_ok h1 ([] :: G) ([] :: E1)) by (constructor; [constructor|exact O1]).
    destruct (negb _).
    + refine (IHs _ _ _ _ _ _ _ _ _ _ _ _ So Re (inside_block _ _ _ _ In) _ GA I2 N2 T2 V1 B1 W1 O2 H2). discriminate.
    + refine (IHs _ _ _ _ _ _ _ _ _ _ _ _ So Re (inside_block _ _ _ _ In) _ GB I3 N3 T3 V2 B2 W1 O2 H2). discriminate.
  - rewrite gen_while_eq in HG. destruct (gen_expr P k m G e) as [[e' i]|] eqn:Ge; [|discriminate].
    destruct (gen_stmts P k m ([] :: G) b) as [[b' Gb]|] eqn:GB; [|discriminate]. injection HG as <- <-.
    pose proof NI as NI0. pose proof NN as NN0. pose proof NT as NT0.
    apply andb_true_iff in NI as [I1 I2]. apply andb_true_iff in NN as [N1 N2]. apply andb_true_iff in NT as [T1 T2].
    apply negb_true_iff in T1.
    cbn [exec1] in HE. apply rbind_ok in HE as ([[h1 E1] d1] & H1 & HE). cbn [fst snd] in HE.
    destruct (TE _ _ _ _ _ _ _ _ _ _ _ _ So Fk Th Ge I1 W O H1) as (W1 & G1 & O1 & _).
    pose proof (KE _ _ _ _ _ _ _ _ _ _ _ _ So Re In Ge I1 N1 T1 W O H1) as X1.
    destruct (_ =? 0).
    { by injection HE as <- <- <-. }
    apply rbind_ok in HE as ([[h2 E2] f2] & H2 & HE). cbn [fst snd] in HE.
    assert (O2 : env_ok h1 ([] :: G) ([] :: E1)) by (constructor; [constructor|exact O1]).
    assert (hn : [] :: G <> ([] : scopes)) by discriminate.
    pose proof (IHs _ _ _ _ _ _ _ _ _ _ _ _ So Re (inside_block _ _ _ _ In) hn GB I2 N2 T2 VF OB W1 O2 H2) as X2.
    destruct (TSS _ _ _ _ _ _ _ _ _ _ _ _ So Fk (this_block _ _ Th) hn GB I2 VF W1 O2 H2) as (W2 & _ & (G3 & O3 & T3 & _) & _).
    destruct f2 as [|d].
    + assert (O4 : env_ok h2 G (tail E2)) by (cbn [tail] in T3; subst G; destruct O3; [constructor|assumption]).
      rewrite (IH1 _ _ _ _ _ _ _ _ _ _ _ _ So Re In hG HG0 NI0 NN0 NT0 VF OB W2 O4 HE). congruence.
    + injection HE as <- <- <-. congruence.
  - apply negb_true_iff in NT. cbn [gen_stmt] in HG. destruct (gen_expr P k m G e) as [[e' i]|] eqn:Ge; [|discriminate].
    destruct (_ && _) eqn:A; [|discriminate].
    injection HG as <- <-. cbn [exec1] in HE. apply rbind_ok in HE as ([[h1 E1] d1] & H1 & HE). cbn [fst snd] in HE. injection HE as <- <- <-.
    by eapply (KE _ _ _ _ _ _ _ _ _ _ _ _ So Re In Ge).
  - cbn [gen_stmt] in HG. destruct (bool_decide _) eqn:B; [|discriminate]. injection HG as <- <-.
    cbn [exec1] in HE. by injection HE as <- <- <-.
Qed.

Lemma U_step_stmts n : U_stmt n -> U_stmts n -> U_stmts (S n).
Proof.
  intros IH1 IHs P k m G h E ss ss' G' h' E' fl So Re In hG HG NI NN NT VF OB W O HE.
  pose proof In as (Fk & Th & _). destruct (typed_all n) as (_ & _ & _ & TS & _).
  destruct ss as [|s ss]; cbn [gen_stmts] in HG.
  - injection HG as <- <-. cbn [exec] in HE. by injection HE as <- <- <-.
  - destruct (gen_stmt P k m G s) as [[s' G1]|] eqn:G1'; [|discriminate].
    destruct (gen_stmts P k m G1 ss) as [[r' G2]|] eqn:G2'; [|discriminate]. injection HG as <- <-.
    cbn [forallb] in NI, NN, NT, VF, OB. apply andb_true_iff in NI as [I1 I2]. apply andb_true_iff in NN as [N1 N2].
    apply andb_true_iff in NT as [T1 T2]. apply andb_true_iff in VF as [V1 V2]. apply andb_true_iff in OB as [B1 B2].
    cbn [exec] in HE. apply rbind_ok in HE as ([[h1 E1] f1] & H1 & HE). cbn [fst snd] in HE.
    pose proof (IH1 _ _ _ _ _ _ _ _ _ _ _ _ So Re In hG G1' I1 N1 T1 V1 B1 W O H1) as X1.
    destruct (TS _ _ _ _ _ _ _ _ _ _ _ _ So Fk Th hG G1' I1 V1 W O H1) as (W1 & _ & (G3 & O3 & _ & Q3) & _).
    destruct (gen_stmt_grows _ _ _ _ _ _ _ hG G1') as (ns & sc & r & EG & EG1).
    destruct f1 as [|d].
    + rewrite (Q3 eq_refl) in O3. assert (hG1 : G1 <> []) by (by rewrite EG1).
      rewrite (IHs _ _ _ _ _ _ _ _ _ _ _ _ So Re (inside_stmt _ _ _ _ _ _ _ In V1 B1 G1') hG1 G2' I2 N2 T2 V2 B2 W1 O3 HE). exact X1.
    + injection HE as <- <- <-. exact X1.
Qed.

Theorem pure_all n : U_expr n /\ U_args n /\ U_call n /\ U_stmt n /\ U_stmts n.
Proof.
  induction n as [|n (IHe & IHa & IHc & IH1 & IHs)].
  - repeat split; repeat intro; discriminate.
  - split; [by apply U_step_expr|]. split; [by apply U_step_args|]. split; [by apply U_step_call|].
    split; [by apply U_step_stmt|by apply U_step_stmts].
Qed.
