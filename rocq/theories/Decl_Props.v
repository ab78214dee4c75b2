(** C65: the declarations of a source file are read as written. *)
From Verif Require Import Base Base_Proofs Text_Model TypeTable Tok_Model Parse_Model Parse_Spec Parse_Brackets Enum_Model Enum_Spec
  Decl_Model Decl_Spec Decl_Proofs Decl_Proofs2 Decl_Proofs3 Decl_Proofs4 Decl_Proofs5 Decl_Proofs6 Decl_Marked.
From Coq Require Import Sorting.Sorted.

(** Every sequence of declarations of the grammar is accepted and gives exactly the declarations written. *)
Theorem C65_read_as_written ts ds e :
  declare InSpace ts ds -> Forall marked ts -> k_type e = ENDOFFILE -> sanity_check (ts ++ [e]) = Ok tt ->
  analyse (ts ++ [e]) = Ok ds.
Proof.
  intros H Hm He Hs. unfold analyse. rewrite Hs. cbn [rbind].
  pose proof (proj2 declares_reads _ _ _ H Hm (S (length (ts ++ [e]))) [e]) as E. cbn [place_of iface_of] in E. rewrite E; [done|rewrite app_length; cbn; lia|].
  right. exists e, []. split; [done|]. rewrite He. left.
Qed.
Print Assumptions C65_read_as_written.
(** The same from the text on: the tokens the tokenizer makes of it are marked, but for operator names. *)
Theorem C65_text text ts ds e :
  tokenize text = Ok (ts ++ [e]) -> declare InSpace ts ds -> k_type e = ENDOFFILE -> sanity_check (ts ++ [e]) = Ok tt ->
  (forall t s, t ∈ ts -> k_text t <> $"operator" ++ s) ->
  analyse_text text = Ok ds.
Proof.
  intros Ht H He Hs Hn. unfold analyse_text. rewrite Ht. cbn [rbind]. apply C65_read_as_written; try done.
  apply tokenize_marked in Ht. apply Forall_app in Ht as [Ht _]. apply Forall_forall. intros t Hin. rewrite Forall_forall in Ht.
  destruct (Ht t Hin) as [Hx|[_ (s & Hx)]]; [done|]. by destruct (Hn t s Hin).
Qed.
Print Assumptions C65_text.
(** No tokens can be read as two different lists of declarations. *)
Theorem C65_unambiguous c ts ds ds' : Forall marked ts -> declare c ts ds -> declare c ts ds' -> ds = ds'.
Proof.
  intros Hm H1 H2. pose proof (proj2 declares_reads _ _ _ H1 Hm (S (length ts)) [] ltac:(lia) ltac:(by left)) as E1. rewrite app_nil_r in E1.
  pose proof (proj2 declares_reads _ _ _ H2 Hm (S (length ts)) [] ltac:(lia) ltac:(by left)) as E2. rewrite app_nil_r in E2. congruence.
Qed.
Print Assumptions C65_unambiguous.
(** Declarations one after the other do not influence each other. *)
Theorem C65_independent c a b ds es : Forall marked (a ++ b) -> declare c a ds -> declare c b es ->
  generate (S (length (a ++ b))) (place_of c) (iface_of c) (a ++ b) = Ok (ds ++ es, iface_of c).
Proof.
  intros Hm Ha Hb. assert (H : declare c (a ++ b) (ds ++ es)).
  { clear Hm. revert Hb. induction Ha as [|c a d a' ds' Hd Ha IH]; intros Hb; [done|]. rewrite <- app_assoc. cbn [app]. constructor; auto. }
  pose proof (proj2 declares_reads _ _ _ H Hm (S (length (a ++ b))) [] ltac:(lia) ltac:(by left)) as E. by rewrite app_nil_r in E.
Qed.
Print Assumptions C65_independent.

(** Whatever the tokens are: what is accepted is sound, down to the innermost declaration. *)
Theorem C65_accepted_sound ts ds : analyse ts = Ok ds -> Forall (sound Space) ds.
Proof.
  unfold analyse. intros H. apply rb_ok in H as (x & _ & H). apply rb_ok in H as (y & E & H). injection H as <-. destruct y as [ds i].
  eapply (sound_generate _ Space false); [|exact E]. done.
Qed.
Print Assumptions C65_accepted_sound.
(** Reading always comes to an end. *)
Theorem C65_ends ts : analyse ts <> Fuel.
Proof.
  unfold analyse. apply rb_no; [|intros u _; apply rb_no; [|done]].
  - unfold sanity_check. repeat case_match; done.
  - apply generate_no. lia.
Qed.
Print Assumptions C65_ends.
(** A type used in a method body is given as many types as there are names between < and >. *)
Theorem C65_type_arguments p ns l a g xs m v r h :
  path p ns -> sym COMPARE_LESS ($"<") l -> some_args a xs -> Forall (fun x => snd x = []) xs -> sym COMPARE_GREATER ($">") g ->
  opt_word MUTABILITY mutabilities Modify m v -> k_type h <> MUTABILITY ->
  parse_type_runtime (p ++ l :: a ++ g :: m ++ h :: r) = Ok (dotted ns, map fst xs, v, h :: r).
Proof.
  intros Hp Hl Ha Hx Hg Hm Hh. unfold parse_type_runtime.
  rewrite (identify_ok _ _ [COMPARE_LESS] _ Hp); [|apply starts_cons; destruct Hl as [-> _]; left|notin]. cbn [rbind snd fst collect_runtime].
  replace (is l COMPARE_LESS) with true by (symmetry; apply is_spec; by destruct Hl).
  rewrite (runtime_loop_ok a xs g (m ++ h :: r) Ha Hx) by (by destruct Hg). cbn [rbind snd fst].
  rewrite (parse_word_ok _ _ to_mutability _ _ _ [k_type h] _ Hm mutability_meaning); [done|apply starts_cons; left|].
  rewrite elem_of_list_singleton. by intros E.
Qed.
Print Assumptions C65_type_arguments.

(** ** A file that is accepted *)
Definition C65_source : str := $"import System.Collections.List;
public namespace A.B { private int x = -5; public void f(int a, string b const ref, B.C c = null) modify throws { print(a); { } } }
public stable abstract object O<T: X, U> extends B.C<T> implements I, J { public static bool b const = true; public void Constructor(int64 v = 99999999999) { } public abstract T get() const; }
public enum E { X, Y = 7; } interface I { void f(); int g(int) modify; } object R<int> replicates Q<int>; ".
Definition kinds (ds : list decl) : list (nat * str) := map (fun d => match d with
  | DImport _ p => (1%nat, p) | DNamespace _ _ p ds => (2 + length ds, dotted p)%nat | DObject _ _ _ t an ds => (length an, td_name t)
  | DInterface _ _ t _ ds => (length ds, td_name t) | DEnum _ _ t es => (length es, td_name t) | DMember _ _ _ _ n _ _ _ => (0%nat, n)
  | DMethod _ _ _ _ n _ _ _ _ => (0%nat, n) end) ds.
Example C65_source_ex : exists ds, analyse_text C65_source = Ok ds /\ kinds ds =
  [(1%nat, $"System.Collections.List"); (4%nat, $"A.B"); (3%nat, $"O"); (2%nat, $"E"); (2%nat, $"I"); (1%nat, $"R")].
Proof. eexists. split; [vm_compute; reflexivity|vm_compute; reflexivity]. Qed.
Definition src (ty : ttype) (s : str) : token := Token CNone ty s 1 1 (existsb (ttype_eqb ty) optional_types).
Lemma src_marked ty s : marked (src ty s).
Proof.
  unfold marked. cbn. unfold optional_types. split.
  - intros H. repeat (apply orb_true_iff in H as [H|H]; [apply ttype_eqb_spec in H as ->; inl|]). done.
  - intros H. repeat (apply elem_of_cons in H as [->|H]; [done|]). by apply elem_of_nil in H.
Qed.
(** The grammar at work: [const object A const { public int get() const throws { } }]. *)
Definition C65_toks : list token :=
  [src VISIBILITY ($"public"); src RESERVED_WORD ($"object"); src IDENTIFIER ($"A"); src MUTABILITY ($"const"); src BRACKET_CURLY_OPEN ($"{");
   src VISIBILITY ($"public"); src IDENTIFIER ($"int"); src IDENTIFIER ($"get"); src PARENTHESIS_OPEN ($"("); src PARENTHESIS_CLOSE ($")");
   src MUTABILITY ($"const"); src MODIFIER ($"throws"); src BRACKET_CURLY_OPEN ($"{"); src BRACKET_CURLY_CLOSE ($"}"); src BRACKET_CURLY_CLOSE ($"}")].
Definition C65_decl : decl :=
  DObject Public Stable Virtual (TDecl ($"A") [] Const) []
    (Some [DMethod Public Virtual Stable (TDecl ($"int") [] Modify) ($"get") [] Const Throws (Some [])]).
Ltac inw := unfold visibilities, mutabilities; first [left|right; left|right; right; left].
Ltac isident := split; [reflexivity|split; [discriminate|apply (bool_decide_unpack _); by vm_compute]].
Example C65_grammar_ex : declare InSpace C65_toks [C65_decl] /\ Forall marked C65_toks /\ sanity_check (C65_toks ++ [eof_token]) = Ok tt.
Proof.
  split_and!; [|repeat constructor; try apply src_marked; by intros|done].
  - assert (E : forall c t d, declares c t d -> declare c t [d]).
    { intros c t d H. rewrite <- (app_nil_r t). constructor; [done|constructor]. }
    apply E. pose (a := fun n => take n C65_toks).
    refine (d_object InSpace [src VISIBILITY ($"public")] Public [] Stable [] Virtual (src RESERVED_WORD ($"object"))
      ([src IDENTIFIER ($"A")] ++ [] ++ [src MUTABILITY ($"const")]) (TDecl ($"A") [] Const) [] [] (src BRACKET_CURLY_OPEN ($"{"))
      (take 9 (drop 5 C65_toks)) _ (src BRACKET_CURLY_CLOSE ($"}")) _ _ _ _ _ _ _ _ _ _ _ _); try done.
    + apply (word_given VISIBILITY visibilities Private (src VISIBILITY ($"public")) Public); [done|inw].
    + constructor.
    + constructor.
    + auto.
    + refine (type_written _ [$"A"] _ _ _ _ _ _ _).
      * apply (path_one (src IDENTIFIER ($"A"))). isident.
      * constructor.
      * apply (word_given MUTABILITY mutabilities Modify (src MUTABILITY ($"const")) Const); [done|inw].
    + constructor.
    + apply E. refine (d_method (InObject true) [src VISIBILITY ($"public")] Public [] Virtual [] Stable ([src IDENTIFIER ($"int")] ++ [] ++ []) _ (src IDENTIFIER ($"get"))
        (src PARENTHESIS_OPEN ($"(")) [] [] (src PARENTHESIS_CLOSE ($")")) [src MUTABILITY ($"const")] Const [src MODIFIER ($"throws")] Throws
        (src BRACKET_CURLY_OPEN ($"{") :: [] ++ [src BRACKET_CURLY_CLOSE ($"}")]) (Some []) _ _ _ _ _ _ _ _ _ _ _ _); try done.
      * apply (word_given VISIBILITY visibilities Private (src VISIBILITY ($"public")) Public); [done|inw].
      * constructor. constructor.
      * constructor.
      * refine (type_written _ [$"int"] _ _ _ _ _ _ _); [|constructor|constructor]. apply (path_one (src IDENTIFIER ($"int"))). isident.
      * isident.
      * constructor.
      * apply (word_given MUTABILITY mutabilities Const (src MUTABILITY ($"const")) Const); [done|inw].
      * by constructor.
      * apply body_some; [done|done|done|constructor].
Qed.
Example C65_read_ex : analyse (C65_toks ++ [eof_token]) = Ok [C65_decl].
Proof. destruct C65_grammar_ex as (H1 & H2 & H3). by apply C65_read_as_written. Qed.
Example C65_sound_ex : sound Space C65_decl.
Proof. pose proof (C65_accepted_sound _ _ C65_read_ex) as H. exact (Forall_inv H). Qed.
(** Declarations that are refused: an ordinary method in an interface, an abstract one with a body, one without a body, a method that changes in a const object, a
    default value of another type or of a reference. *)
Example C65_refused_ex : Forall (fun s => exists x, analyse_text s = Throw x)
  [$"interface I { void f() { } } "; $"object A { abstract void f() { } } "; $"object A { void f(); } "; $"object A const { void f() modify { } } ";
   $"object A const extends B { } "; $"interface I extends J { } "; $"void f(int a = true) { } "; $"void f(int a ref = 1) { } "; $"enum E { A = 2, B = 1; } ";
   $"static object A { } "; $"object A { namespace B { } } "; $"object A { int x int y; } "].
Proof. repeat (constructor; [eexists; vm_compute; reflexivity|]). constructor. Qed.

(** ** Where the claim fails *)
Definition accepted (s : str) : Prop := exists ds, analyse_text s = Ok ds.
Definition refused (s : str) : Prop := exists x, analyse_text s = Throw x.
(** An enumeration cannot have both a visibility and a feature state, though every other declaration can. *)
Theorem C65_enum_words_refuted :
  accepted ($"public enum E { A; } ") /\ accepted ($"stable enum E { A; } ") /\ refused ($"public stable enum E { A; } ") /\
  accepted ($"public stable object E { int A; } ").
Proof. split_and!; eexists; vm_compute; reflexivity. Qed.
Print Assumptions C65_enum_words_refuted.
(** A file or a body that ends within a declaration is read past its end. *)
Theorem C65_cut_off_refuted :
  analyse_text ($"int ") = UB /\ analyse_text ($"public ") = UB /\ analyse_text ($"object A { public } ") = UB.
Proof. split_and!; vm_compute; reflexivity. Qed.
Print Assumptions C65_cut_off_refuted.
(** An interface with an interface in it: behind the inner one the methods of the outer one are read as those of an object, so
    that methods without a body are refused, and methods with one are accepted. *)
Theorem C65_nested_interface_refuted :
  refused ($"interface A { interface B { void f(); } void g(); } ") /\
  (exists v f t ps m e w x y z ds, analyse_text ($"interface A { interface B { void f(); } void g() { } } ") =
     Ok [DInterface w x y z (ds ++ [DMethod v Virtual f t ($"g") ps m e (Some [])])]) /\
  accepted ($"interface A { void g(); interface B { void f(); } } ").
Proof.
  split_and!; [eexists; vm_compute; reflexivity| |eexists; vm_compute; reflexivity].
  eexists _, _, _, _, _, _, _, _, _, _, [DInterface Private Unstable (TDecl ($"B") [] Modify) [] [_]]. vm_compute. reflexivity.
Qed.
Print Assumptions C65_nested_interface_refuted.
(** An object declared in an interface cannot have methods with a body. *)
Theorem C65_object_in_interface_refuted :
  refused ($"interface A { object B { public void f() { } } } ") /\ accepted ($"object A { object B { public void f() { } } } ").
Proof. split; eexists; vm_compute; reflexivity. Qed.
Print Assumptions C65_object_in_interface_refuted.
(** Any token separates two parameters, and between two type names it may be missing at all. *)
Theorem C65_separators_refuted :
  (exists v l f t m e b p q r, analyse_text ($"void f(int a; int b + int c) { } ") = Ok [DMethod v l f t ($"f") [p; q; r] m e b] /\
     map pa_name [p; q; r] = [$"a"; $"b"; $"c"]) /\
  (exists v l f t m e b p q, analyse_text ($"void f(int a int b) { } ") = Ok [DMethod v l f t ($"f") [p; q] m e b] /\
     pa_name p = $"a" /\ pa_name q = [] /\ td_name (pa_type q) = $"b").
Proof.
  split.
  - eexists _, _, _, _, _, _, _, _, _, _. split; [vm_compute; reflexivity|vm_compute; reflexivity].
  - eexists _, _, _, _, _, _, _, _, _. split; [vm_compute; reflexivity|vm_compute; done].
Qed.
Print Assumptions C65_separators_refuted.
(** Behind an abstract method any token is taken for the semicolon. *)
Theorem C65_semicolon_refuted : exists v l f t ps m e b t' l' f' a' i i1 i2 i3,
  analyse_text ($"interface I { void f() public int x; } ") =
    Ok [DInterface i i1 i2 i3 [DMethod v l f t ($"f") ps m e b; DMember Private l' f' t' ($"x") Modify a' (DInt 0)]].
Proof. eexists _, _, _, _, _, _, _, _, _, _, _, _, _, _, _, _. vm_compute. reflexivity. Qed.
Print Assumptions C65_semicolon_refuted.
(** A qualified type argument counts as three arguments. *)
Theorem C65_qualified_argument_refuted : exists v l f n m a d mu,
  analyse_text ($"B<C.D> x; ") = Ok [DMember v l f (TDecl ($"B") [($"C", []); ($".", []); ($"D", [])] mu) n m a d].
Proof. eexists _, _, _, _, _, _, _, _. vm_compute. reflexivity. Qed.
Print Assumptions C65_qualified_argument_refuted.
(** A colon passes for the comma between the type arguments of a type used in a method body. *)
Theorem C65_colon_refuted : exists t1 t2 r1 r2, tokenize ($"B<C : D, E> x ; ") = Ok t1 /\ tokenize ($"B<C, D, E> x ; ") = Ok t2 /\
  parse_type_runtime t1 = Ok ($"B", [$"C"; $"D"; $"E"], Modify, r1) /\ parse_type_runtime t2 = Ok ($"B", [$"C"; $"D"; $"E"], Modify, r2).
Proof. do 4 eexists. split; [vm_compute; reflexivity|]. split; [vm_compute; reflexivity|]. split; vm_compute; reflexivity. Qed.
Print Assumptions C65_colon_refuted.
(** A default value too large for its type is cut without a message, for every number. *)
Theorem C65_too_large_refuted t r n : (32768 <= n <= 65535)%Z -> sym CONST_INTEGER (print_int n) t ->
  parse_value (t :: r) t_int16 = Ok (DInt (n - 65536), t :: r).
Proof.
  intros Hn [Ht Hs]. unfold parse_value. replace (is t MATH_SUBTRACT) with false by (symmetry; apply is_not; rewrite Ht; done).
  rewrite Ht. change (str_eqb t_int16 t_int16) with true. cbv iota beta zeta. cbn [app]. rewrite Hs.
  rewrite <- (app_nil_r (print_int n)), (Text_Proofs.string_to_int_print n []) by (try done; unfold int64_min, int64_max; lia). unfold to_int16.
  assert (E : ((n + 32768) mod 65536 = n - 32768)%Z) by (symmetry; apply (Z.mod_unique _ _ 1%Z); lia). rewrite E. do 3 f_equal. lia.
Qed.
Print Assumptions C65_too_large_refuted.
Example C65_too_large_ex : exists v l f t m a, analyse_text ($"int16 x = 40000; ") = Ok [DMember v l f t ($"x") m a (DInt (-25536))].
Proof. eexists _, _, _, _, _, _. vm_compute. reflexivity. Qed.
(** The list of ancestors may lack its commas, and the names of a namespace their points or all of them. *)
Theorem C65_missing_signs_refuted :
  analyse_text ($"object A extends B C { } ") = analyse_text ($"object A extends B, C { } ") /\ accepted ($"object A extends B C { } ") /\
  analyse_text ($"namespace A B { } ") = analyse_text ($"namespace A.B { } ") /\ accepted ($"namespace A B { } ") /\ accepted ($"namespace { } ").
Proof. split_and!; try (vm_compute; reflexivity); eexists; vm_compute; reflexivity. Qed.
Print Assumptions C65_missing_signs_refuted.
(** "val" asks for a copy, but is recorded as if nothing was written; without it a member is recorded as copied. *)
Theorem C65_val_refuted :
  (exists v l f t m d, analyse_text ($"int x val; ") = Ok [DMember v l f t ($"x") m AUnspecified d]) /\
  (exists v l f t m d, analyse_text ($"int x; ") = Ok [DMember v l f t ($"x") m ByValue d]).
Proof. split; eexists _, _, _, _, _, _; vm_compute; reflexivity. Qed.
Print Assumptions C65_val_refuted.
