(** Properties C05-C10 and C37: names, overloads, parameters. *)
From Verif Require Import Base Base_Proofs Scope_Model Scope_Spec Scope_Proofs.

(** ** C05 Names resolve to the innermost visible declaration *)
Theorem C05_innermost s n v y : plain s -> resolve s n false v = Some y ->
  exists k sk, chain s !! k = Some sk /\ best sk n v y /\
    forall j sj, (j < k)%nat -> chain s !! j = Some sj -> forall p z, ~ declares sj n v p z.
Proof. intros Hp. rewrite resolve_plain by done. apply first_own_Some. Qed.

Theorem C05_found_iff_declared s n v : plain s ->
  (resolve s n false v = None <-> forall sk, sk ∈ chain s -> forall p z, ~ declares sk n v p z).
Proof. intros Hp. rewrite resolve_plain by done. apply first_own_None. Qed.

Theorem C05_current_scope_only s n v : plain s ->
  (forall y, resolve s n true v = Some y -> best s n v y) /\
  (resolve s n true v = None <-> forall p z, ~ declares s n v p z).
Proof. intros Hp. rewrite resolve_plain_only by done. split; [apply own_Some|apply own_None]. Qed.

(** Three scopes; the innermost one declares x invisibly for Public, the second hides the third. *)
Definition ex_global := Scope KMet {[ $"x" := Decl 1 Public; $"y" := Decl 2 Public ]} ∅
  [Method 7 ($"f") Public [Param ($"a") ($"int") false 0 0] false] [] None None.
Definition ex_method := Scope KMet {[ $"x" := Decl 3 Public ]} {[ $"z" := Decl 4 Public ]} [] [] None (Some ex_global).
Definition ex_block := Scope KSym {[ $"x" := Decl 5 Private ]} ∅ [] [] None (Some ex_method).
Example C05_case :
  plain ex_block /\ resolve ex_block ($"x") false Private = Some (SymDecl (Decl 5 Private)) /\
  resolve ex_block ($"x") false Public = Some (SymDecl (Decl 3 Public)) /\
  resolve ex_block ($"y") false Public = Some (SymDecl (Decl 2 Public)) /\
  resolve ex_block ($"f") false Public = Some (SymMethod (Method 7 ($"f") Public [Param ($"a") ($"int") false 0 0] false)) /\
  resolve ex_block ($"y") true Public = None /\ resolve ex_block ($"q") false Designtime = None.
Proof. vm_compute. repeat split; done. Qed.

(** ** C06 No duplicate declarations in one scope *)
Theorem C06_symbol_scope_rejects s n d : skind s = KSym ->
  (define s n d = Throw "DuplicateIdentifier" <-> is_Some (ssyms s !! n) \/ is_Some (sexts s !! n)).
Proof. apply define_fails. Qed.
Theorem C06_method_scope_rejects s n d : skind s <> KSym ->
  (define s n d = Throw "DuplicateIdentifier" <-> is_Some (ssyms s !! n)).
Proof. apply define_fails_met. Qed.
Theorem C06_define_effect s n d s' : define s n d = Ok s' ->
  (forall only v, visible (d_vis d) v -> resolve s' n only v = Some (SymDecl d)) /\
  (forall n' only v, n' <> n -> resolve s' n' only v = resolve s n' only v) /\
  undefine s' n = s.
Proof.
  intros H. split; [intros; by eapply define_found|].
  split; [intros; by eapply define_other|by eapply define_undefine].
Qed.
(** For all histories: what every name denotes in the scope depends only on the
    declarations of that name and is the first one not yet removed. *)
Theorem C06_histories s os n : let s' := srun s os in
  (ssyms s' !! n, sexts s' !! n) = fold_left (name_step (skind s) n) os (ssyms s !! n, sexts s !! n) /\
  sparent s' = sparent s.
Proof. cbn zeta. destruct (srun_name os s n) as (?&?&?&?&?&?). by split. Qed.
(** The method-scope variant of define does not see imported names: an import is
    silently hidden instead of being rejected. *)
Theorem C06_method_scope_shadows_import_refuted :
  exists s n d s', skind s = KMet /\ resolve s n true Designtime <> None /\ define s n d = Ok s' /\
    resolve s' n true Designtime <> resolve s n true Designtime.
Proof.
  exists ex_method, ($"z"), (Decl 9 Public). eexists. split; [done|].
  split; [vm_compute; done|]. split; [vm_compute; reflexivity|vm_compute; done].
Qed.
Example C06_case : exists s', define ex_block ($"y") (Decl 6 Private) = Ok s' /\
  resolve s' ($"y") false Private = Some (SymDecl (Decl 6 Private)) /\
  define ex_block ($"x") (Decl 6 Private) = Throw "DuplicateIdentifier".
Proof. eexists. split; [vm_compute; reflexivity|vm_compute; done]. Qed.

(** ** C07 Overloads are distinguishable *)
(** A method is rejected exactly if one with its name already accepts its declared types. *)
Theorem C07_rejected_iff s m :
  define_method s m = Throw "DuplicateIdentifier" <->
  exists x, (x ∈ smeths s \/ x ∈ semeths s) /\ m_name x = m_name m /\
            accepts_types (m_sig x) (map p_type (m_sig m)).
Proof.
  destruct s as [k sy ex ms em base parent]. unfold define_method. cbn [smeths semeths]. split.
  - destruct (orelse _ _) as [x|] eqn:E; [|done]. intros _. exists x.
    apply orelse_Some in E as [E|[_ E]]; apply find_overload_Some in E as (?&?&?&?);
      (split_and!; auto; by apply signature_valid_spec).
  - intros (x&Hx&Hn&Ha). apply signature_valid_spec in Ha.
    destruct (orelse _ _) as [y|] eqn:E; [done|]. exfalso. apply orelse_None in E as [E1 E2].
    destruct Hx as [Hx|Hx]; [eapply (find_overload_None _ _ _ _ E1 x)|eapply (find_overload_None _ _ _ _ E2 x)];
      auto using visible_designtime.
Qed.
(** Right after its declaration, a call with exactly the declared types runs the new method. *)
Theorem C07_declared_is_called s m s' v only : skind s = KMet -> define_method s m = Ok s' ->
  m_ptr m ∉ map m_ptr (smeths s) -> visible (m_vis m) v ->
  resolve_method s' (m_name m) (m_sig m) only v = Some m.
Proof. apply define_method_call. Qed.
(** Without default values and untyped parameters no call is ambiguous, whatever was declared in which order. *)
Theorem C07_strict_unambiguous_partial k base parent l ps : Forall strict_method l ->
  let s := mrun_defs (Scope k ∅ ∅ [] [] base parent) l in
  forall a b, a ∈ smeths s -> b ∈ smeths s -> m_name a = m_name b ->
    accepts_types (m_sig a) (map p_type ps) -> accepts_types (m_sig b) (map p_type ps) -> a = b.
Proof.
  intros Hl s a b Ha Hb Hn H1 H2. apply signature_valid_spec in H1, H2.
  destruct (mrun_defs_unique l (Scope k ∅ ∅ [] [] base parent) Hl) as [_ H].
  - constructor.
  - intros ? ? ? Hx. by apply elem_of_nil in Hx.
  - by eapply (H a b ps).
Qed.
(** With defaults the check is one-sided: f(int) and then f(int, string = ...) are both accepted, both
    accept the call f(1), and which one runs depends only on the addresses of the method objects. *)
Definition f1 (p : N) := Method p ($"f") Public [Param ($"a") ($"int") false 0 0] false.
Definition f2 (p : N) := Method p ($"f") Public
  [Param ($"a") ($"int") false 0 0; Param ($"b") ($"string") true 0 0] false.
Theorem C07_default_ambiguity_refuted : forall p q, p <> q ->
  let s := mrun_defs (Scope KMet ∅ ∅ [] [] None None) [f1 p; f2 q] in
  let call := [Param [] ($"int") false 1 0] in
  smeths s ≡ₚ [f1 p; f2 q] /\
  resolve_method s ($"f") call false Public = Some (if (p <? q)%N then f1 p else f2 q).
Proof.
  intros p q Hpq. unfold mrun_defs. cbn [fold_left].
  assert (E1 : define_method (Scope KMet ∅ ∅ [] [] None None) (f1 p) = Ok (Scope KMet ∅ ∅ [f1 p] [] None None)) by done.
  rewrite E1.
  assert (E2 : define_method (Scope KMet ∅ ∅ [f1 p] [] None None) (f2 q) =
     Ok (Scope KMet ∅ ∅ (ptr_insert [f1 p] (f2 q)) [] None None)) by done.
  rewrite E2. cbn [ptr_insert smeths]. unfold f1, f2. cbn [m_ptr].
  destruct (N.ltb_spec q p), (N.ltb_spec p q); try lia; (split; [|by vm_compute]); [apply perm_swap|done].
Qed.
Example C07_case : exists s', define_method ex_global (f1 9) = Throw "DuplicateIdentifier" /\
  define_method ex_global (f2 9) = Ok s' /\ m_ptr (f2 9) ∉ map m_ptr (smeths ex_global) /\
  resolve_method s' ($"f") (m_sig (f2 9)) false Public = Some (f2 9).
Proof.
  eexists. split; [by vm_compute|]. split; [vm_compute; reflexivity|]. split; [|by vm_compute].
  cbn. rewrite elem_of_list_singleton. done.
Qed.
Example C07_strict_case : strict_method (f1 3).
Proof. repeat constructor; done. Qed.

(** ** C08 Default parameters complete a call *)
Theorem C08_accepts m args :
  (exists l, merge_parameters m args = Ok l) <-> accepts_types (m_sig m) (map p_type args).
Proof.
  unfold merge_parameters. rewrite <- signature_valid_spec.
  destruct (is_signature_valid m args); split; try done; [eauto|by intros [? ?]].
Qed.
Theorem C08_completed m args l : merge_parameters m args = Ok l ->
  length l = length (m_sig m) /\
  map (fun p => (p_name p, p_type p, p_value p)) l = completed (m_sig m) args.
Proof.
  unfold merge_parameters. destruct (is_signature_valid m args) eqn:E; [|done]. intros [= <-].
  split; [apply merge_length|]. apply merge_triples.
  apply signature_valid_spec in E as (Hl&_). by rewrite map_length in Hl.
Qed.
Theorem C08_otherwise_rejected m args : ~ accepts_types (m_sig m) (map p_type args) ->
  merge_parameters m args = Throw "ParameterCountMismatch".
Proof.
  intros H. unfold merge_parameters. destruct (is_signature_valid m args) eqn:E; [|done].
  by apply signature_valid_spec in E.
Qed.
Definition ex_fill := Method 1 ($"g") Public
  [Param ($"a") ($"int") false 0 0; Param ($"b") ($"int") true 5 0; Param ($"c") ($"int") true 6 0] false.
Example C08_case :
  merge_parameters ex_fill [Param [] ($"int") false 4 0; Param [] ($"int") false 3 0] =
  Ok [Param ($"a") ($"int") false 4 0; Param ($"b") ($"int") true 3 0; Param ($"c") ($"int") true 6 0] /\
  merge_parameters ex_fill [] = Throw "ParameterCountMismatch" /\
  merge_parameters ex_fill [Param [] ($"string") false 4 0] = Throw "ParameterCountMismatch".
Proof. by vm_compute. Qed.

(** ** C09 Defaulted parameters do not alias the arguments *)
(** False: every defaulted parameter carries the reference of the last given argument. *)
Theorem C09_alias_exact m args l : merge_parameters m args = Ok l ->
  map p_ref l = map p_ref args ++
    replicate (length (m_sig m) - length args) (default 0%N (last (map p_ref args))).
Proof.
  unfold merge_parameters. destruct (is_signature_valid m args) eqn:E; [|done]. intros [= <-].
  apply merge_refs. apply signature_valid_spec in E as (Hl&_). by rewrite map_length in Hl.
Qed.
Theorem C09_no_alias_refuted : exists m args l i p q,
  merge_parameters m args = Ok l /\ (length args <= i)%nat /\ l !! i = Some p /\
  q ∈ args /\ p_ref q <> 0%N /\ p_ref p = p_ref q.
Proof.
  exists ex_fill, [Param [] ($"int") false 0 42]. eexists. exists 1%nat. eexists. eexists.
  split; [vm_compute; reflexivity|]. split; [cbn; lia|]. split; [reflexivity|].
  split; [left|]. done.
Qed.
(** True if the last argument is passed by value (or there are none). *)
Theorem C09_no_alias_partial m args l i p : merge_parameters m args = Ok l ->
  default 0%N (last (map p_ref args)) = 0%N ->
  (length args <= i)%nat -> l !! i = Some p -> p_ref p = 0%N.
Proof.
  intros H H0 Hi Hp. apply C09_alias_exact in H.
  assert (E : map p_ref l !! i = Some (p_ref p)) by (by rewrite list_lookup_fmap, Hp).
  rewrite H, lookup_app_r in E by (by rewrite map_length).
  apply lookup_replicate in E as [E _]. congruence.
Qed.
Example C09_case : exists l, merge_parameters ex_fill [Param [] ($"int") false 4 0] = Ok l /\ length l = 3%nat.
Proof. eexists. split; [vm_compute; reflexivity|done]. Qed.

(** ** C10 The method order is a strict weak order *)
Theorem C10_strict_order a b c :
  method_less a a = false /\
  (method_less a b = true -> method_less b a = false) /\
  (method_less a b = true -> method_less b c = true -> method_less a c = true).
Proof.
  split; [apply method_less_irrefl|]. split; [|apply method_less_trans].
  intros H. destruct (method_less b a) eqn:E; [|done].
  pose proof (method_less_trans _ _ _ H E) as F. by rewrite method_less_irrefl in F.
Qed.
Theorem C10_equivalent_iff_same_signature a b :
  (method_less a b = false /\ method_less b a = false) <-> same_signature a b.
Proof. apply method_less_incomparable. Qed.
Example C10_case : method_less (f1 3) (f2 1) = true /\ same_signature (f1 1) (f1 2) /\
  method_less (f2 1) (Method 2 ($"f") Public [Param ($"a") ($"string") false 0 0] false) = false.
Proof. by vm_compute. Qed.

(** ** C37 Members are looked up nearest class first *)
Theorem C37_nearest_class s n v only : object_chain s -> v <> Designtime ->
  (exists b p z, b ∈ bases s /\ declares b n v p z) ->
  exists y k sk, resolve s n only v = Some y /\ bases s !! k = Some sk /\ best sk n v y /\
    forall j sj, (j < k)%nat -> bases s !! j = Some sj -> forall p z, ~ declares sj n v p z.
Proof.
  intros Ho Hv (b&p&z&Hb&Hd).
  destruct (first_own (bases s) n v) as [y|] eqn:E.
  - exists y. destruct (first_own_Some _ _ _ _ E) as (k&sk&H1&H2&H3). exists k, sk. split; [|auto].
    destruct only; [by rewrite obj_only|by apply obj_found].
  - rewrite first_own_None in E. by destruct (E b Hb p z).
Qed.
Theorem C37_member_access_stays_inside s n v : object_chain s -> v <> Designtime ->
  (forall b, b ∈ bases s -> forall p z, ~ declares b n v p z) -> resolve s n true v = None.
Proof. intros Ho Hv H. rewrite obj_only by done. by apply first_own_None. Qed.
Theorem C37_outer_only_if_not_inherited s n v y : object_chain s -> v <> Designtime ->
  (forall b, b ∈ bases s -> forall p z, ~ declares b n v p z) ->
  resolve s n false v = Some y ->
  exists b p w, b ∈ bases s /\ sparent b = Some p /\ (w = v \/ w = Protected) /\ resolve p n false w = Some y.
Proof. intros Ho Hv H. apply obj_outer; [done..|]. by apply first_own_None. Qed.
(** Design time look-up: own declarations of any visibility, then inherited ones that are at least protected. *)
Theorem C37_designtime s b n p z : object_chain s -> sbase s = Some b ->
  (forall q w, ~ declares s n Designtime q w) ->
  (exists c, c ∈ bases b /\ declares c n Protected p z) ->
  exists y k sk, resolve s n false Designtime = Some y /\ bases b !! k = Some sk /\ best sk n Protected y /\
    forall j sj, (j < k)%nat -> bases b !! j = Some sj -> forall q w, ~ declares sj n Protected q w.
Proof.
  intros Ho Hb Hn (c&Hc&Hd). destruct (first_own (bases b) n Protected) as [y|] eqn:E.
  - exists y. destruct (first_own_Some _ _ _ _ E) as (k&sk&H1&H2&H3). exists k, sk. split; [|auto].
    destruct (obj_designtime s n Ho) as [_ G]. apply (G b); [by apply own_None|done|done].
  - rewrite first_own_None in E. by destruct (E c Hc p z).
Qed.
(** Method calls on an object: the nearest class that offers a matching overload, when no class of the chain
    has a final method. *)
Theorem C37_methods_nearest_class s n ps v : object_chain s -> v <> Designtime ->
  (forall b m, b ∈ bases s -> m ∈ smeths b \/ m ∈ semeths b -> m_final m = false) ->
  match resolve_method s n ps true v with
  | Some m => exists k sk, bases s !! k = Some sk /\ offers sk n ps v m /\
      forall j sj, (j < k)%nat -> bases s !! j = Some sj -> forall x, ~ offers sj n ps v x
  | None => forall b, b ∈ bases s -> forall m, ~ offers b n ps v m
  end.
Proof.
  intros Ho Hv Hf. rewrite objm_only by done.
  destruct (first_overload (bases s) n ps v) as [m|] eqn:E.
  - by apply first_overload_Some.
  - by apply first_overload_None.
Qed.
(** Private members of a base class are not protected from derived code: the run time asks with Private. *)
Definition ex_base := Scope KObj {[ $"secret" := Decl 1 Private; $"m" := Decl 2 Protected ]} ∅ [f1 1] [] None None.
Definition ex_derived := Scope KObj {[ $"m" := Decl 3 Public ]} ∅ [] [] (Some ex_base) None.
Theorem C37_private_base_members_hidden_refuted :
  exists s b n y, object_chain s /\ sbase s = Some b /\ ssyms s !! n = None /\
    resolve s n true Private = Some y /\ sym_vis y = Private.
Proof. exists ex_derived, ex_base, ($"secret"), (SymDecl (Decl 1 Private)). by vm_compute. Qed.
Example C37_case : object_chain ex_derived /\
  resolve ex_derived ($"m") true Private = Some (SymDecl (Decl 3 Public)) /\
  resolve ex_derived ($"secret") true Protected = None /\
  resolve ex_derived ($"secret") false Designtime = None /\
  resolve_method ex_derived ($"f") (m_sig (f1 1)) true Private = Some (f1 1).
Proof. by vm_compute. Qed.

Print Assumptions C05_innermost.
Print Assumptions C05_found_iff_declared.
Print Assumptions C05_current_scope_only.
Print Assumptions C06_symbol_scope_rejects.
Print Assumptions C06_method_scope_rejects.
Print Assumptions C06_define_effect.
Print Assumptions C06_histories.
Print Assumptions C06_method_scope_shadows_import_refuted.
Print Assumptions C07_rejected_iff.
Print Assumptions C07_declared_is_called.
Print Assumptions C07_strict_unambiguous_partial.
Print Assumptions C07_default_ambiguity_refuted.
Print Assumptions C08_accepts.
Print Assumptions C08_completed.
Print Assumptions C08_otherwise_rejected.
Print Assumptions C09_alias_exact.
Print Assumptions C09_no_alias_refuted.
Print Assumptions C09_no_alias_partial.
Print Assumptions C10_strict_order.
Print Assumptions C10_equivalent_iff_same_signature.
Print Assumptions C37_nearest_class.
Print Assumptions C37_member_access_stays_inside.
Print Assumptions C37_outer_only_if_not_inherited.
Print Assumptions C37_designtime.
Print Assumptions C37_methods_nearest_class.
Print Assumptions C37_private_base_members_hidden_refuted.
