(** Proofs about const correctness. *)
From Verif Require Import Base Base_Proofs Const_Model Const_Spec.
Open Scope Z_scope.

Lemma rbind_ok {A B} (r : res A) (f : A -> res B) y : rbind r f = Ok y -> exists x, r = Ok x /\ f x = Ok y.
Proof. destruct r; cbn [rbind]; try discriminate. intros H. exists a. auto. Qed.

Lemma same_eq a b : same a b = true -> a = b.
Proof. unfold same. by intros ?%bool_decide_eq_true. Qed.
Lemma same_refl a : same a a = true.
Proof. unfold same. by apply bool_decide_eq_true. Qed.
Lemma same_neq a b : a <> b -> same a b = false.
Proof. unfold same. intros. by apply bool_decide_eq_false. Qed.

Lemma find_class_spec P c k : find_class P c = Some k -> k ∈ P /\ c_name k = c.
Proof. intros H. apply List.find_some in H as [H1 H2]. split; [by apply elem_of_list_In|by apply same_eq]. Qed.
Lemma find_method_spec k n m : find_method k n = Some m -> m ∈ c_methods k /\ m_name m = n.
Proof. intros H. apply List.find_some in H as [H1 H2]. split; [by apply elem_of_list_In|by apply same_eq]. Qed.

(** ** The generator, one constructor at a time *)
Section GenInv.
Variables (P : prog) (k : cls) (m : meth) (G : scopes).

Lemma gen_call_eq p l : gen_expr P k m G (ECall p l) =
  match resolve_path P k m G p, gen_args P k m G l with
  | Some ps, Some (l', is) =>
      match last ps with
      | Some q =>
          match t_meth q with
          | Some (owner, f) =>
              if args_ok (m_params f) is && call_ok k m ps owner f
              then Some (ECall (path_of ps) l', Info (m_ret f) (m_ret_const f || inner_const ps) (m_ret_const f || inner_const ps))
              else None
          | None => None
          end
      | None => None
      end
  | _, _ => None
  end.
Proof. reflexivity. Qed.

Lemma gen_new_eq t l : gen_expr P k m G (ENew t l) =
  match gen_args P k m G l with
  | Some (l', is) =>
      match t with
      | TInt => if args_ok [Par [] TInt false false] is then Some (ENew t l', Info (Some t) false false) else None
      | TCls c =>
          match find_class P c with
          | Some k' =>
              match find_method k' str_constructor with
              | Some f =>
                  if args_ok (m_params f) is && bool_decide (m_kind f = KConstructor)
                  then Some (ENew t l', Info (Some t) false false) else None
              | None => if args_ok [] is then Some (ENew t l', Info (Some t) false false) else None
              end
          | None => None
          end
      end
  | None => None
  end.
Proof. reflexivity. Qed.

Lemma gen_if_eq e a b : gen_stmt P k m G (SIf e a b) =
  match gen_expr P k m G e, gen_stmts P k m ([] :: G) a, gen_stmts P k m ([] :: G) b with
  | Some (e', i), Some (a', _), Some (b', _) => Some (SIf e' a' b', G)
  | _, _, _ => None
  end.
Proof. reflexivity. Qed.
Lemma gen_while_eq e b : gen_stmt P k m G (SWhile e b) =
  match gen_expr P k m G e, gen_stmts P k m ([] :: G) b with
  | Some (e', i), Some (b', _) => Some (SWhile e' b', G)
  | _, _ => None
  end.
Proof. reflexivity. Qed.
End GenInv.

Section ExprInd.
Variable Q : expr -> Prop.
Hypothesis HInt : forall z, Q (EInt z).
Hypothesis HPath : forall p, Q (EPath p).
Hypothesis HAdd : forall a b, Q a -> Q b -> Q (EAdd a b).
Hypothesis HAssign : forall p a, Q a -> Q (EAssign p a).
Hypothesis HInc : forall p d, Q (EInc p d).
Hypothesis HCall : forall p l, Forall Q l -> Q (ECall p l).
Hypothesis HNew : forall t l, Forall Q l -> Q (ENew t l).
Fixpoint expr_ind' (e : expr) : Q e.
Proof.
  destruct e as [z|p|a b|p a|p d|p l|t l].
  - apply HInt.
  - apply HPath.
  - apply HAdd; apply expr_ind'.
  - apply HAssign; apply expr_ind'.
  - apply HInc.
  - apply HCall. induction l as [|x l IH]; constructor; [apply expr_ind'|exact IH].
  - apply HNew. induction l as [|x l IH]; constructor; [apply expr_ind'|exact IH].
Defined.
End ExprInd.

(** ** Looking up and changing variables *)
Lemma assoc_cons {A} n x (v : A) l : assoc n ((x, v) :: l) = if same x n then Some v else assoc n l.
Proof. unfold assoc. cbn [List.find fst]. destruct (same x n); reflexivity. Qed.
Lemma assoc_dom {A B} n (s : list (str * A)) (t : list (str * B)) :
  map fst s = map fst t -> is_Some (assoc n s) <-> is_Some (assoc n t).
Proof.
  revert t; induction s as [|[x a] s IH]; intros [|[y b] t] H; cbn in H; try discriminate.
  - split; intros [? [=]].
  - injection H as -> H. rewrite !assoc_cons. destruct (same y n).
    + split; intros _; eexists; reflexivity.
    + exact (IH t H).
Qed.
Lemma assoc_none_dom {A B} n (s : list (str * A)) (t : list (str * B)) :
  map fst s = map fst t -> assoc n s = None -> assoc n t = None.
Proof.
  intros H E. destruct (assoc n t) eqn:F; [|reflexivity].
  destruct (proj2 (assoc_dom n s t H) (ex_intro _ _ F)) as [y G]. congruence.
Qed.
Lemma assoc_in {A} n (l : list (str * A)) v : assoc n l = Some v -> n ∈ map fst l.
Proof.
  induction l as [|[x a] l IH]; [discriminate|]. rewrite assoc_cons.
  destruct (same x n) eqn:E; intros H.
  - apply same_eq in E as ->. left.
  - right. exact (IH H).
Qed.
Lemma assoc_app {A} n (l r : list (str * A)) :
  assoc n (l ++ r) = match assoc n l with Some v => Some v | None => assoc n r end.
Proof.
  induction l as [|[x a] l IH]; [reflexivity|]. cbn [app]. rewrite !assoc_cons. destruct (same x n); [reflexivity|exact IH].
Qed.
Lemma set_assoc_dom {A} n (v : A) l : map fst (set_assoc n v l) = map fst l.
Proof. induction l as [|[x a] l IH]; [reflexivity|]. cbn [set_assoc fst]. destruct (same x n); cbn [map fst]; [reflexivity|by rewrite IH]. Qed.
Lemma assoc_set {A} n (v : A) l : is_Some (assoc n l) -> assoc n (set_assoc n v l) = Some v.
Proof.
  induction l as [|[x a] l IH]; intros [y H]; [discriminate|]. rewrite assoc_cons in H. cbn [set_assoc fst].
  destruct (same x n) eqn:E; rewrite assoc_cons, E; [reflexivity|]. apply IH. by exists y.
Qed.
Lemma assoc_set_ne {A} n n' (v : A) l : n <> n' -> assoc n' (set_assoc n v l) = assoc n' l.
Proof.
  intros hn. induction l as [|[x a] l IH]; [reflexivity|]. cbn [set_assoc fst].
  destruct (same x n) eqn:E; rewrite !assoc_cons.
  - apply same_eq in E as ->. rewrite same_neq by done. reflexivity.
  - destruct (same x n'); [reflexivity|exact IH].
Qed.

(** The scopes after a run that may only have changed what is not const. *)
Fixpoint keep_scope (s : list (str * entry)) (a b : list (str * hnd)) : Prop :=
  match s, a, b with
  | [], [], [] => True
  | q :: s', x :: a', y :: b' =>
      fst x = fst q /\ fst y = fst q /\ (e_const (snd q) = true -> snd x = snd y) /\ keep_scope s' a' b'
  | _, _, _ => False
  end.
Fixpoint keep (G : scopes) (E E' : env) : Prop :=
  match G, E, E' with
  | [], [], [] => True
  | s :: G', a :: E1, b :: E2 => keep_scope s a b /\ keep G' E1 E2
  | _, _, _ => False
  end.
Lemma keep_scope_refl s a : map fst s = map fst a -> keep_scope s a a.
Proof.
  revert a; induction s as [|q s IH]; intros [|x a] H; try discriminate; cbn [keep_scope]; [exact I|].
  injection H as H1 H2. repeat split; auto.
Qed.
Lemma keep_scope_dom s a b : keep_scope s a b -> map fst s = map fst a /\ map fst s = map fst b.
Proof.
  revert a b; induction s as [|q s IH]; intros [|x a] [|y b] H; cbn [keep_scope] in H; try done.
  destruct H as (h1 & h2 & _ & H). destruct (IH _ _ H) as [h3 h4]. cbn [map]. split; f_equal; auto.
Qed.
Lemma keep_scope_trans s a b c : keep_scope s a b -> keep_scope s b c -> keep_scope s a c.
Proof.
  revert a b c; induction s as [|q s IH]; intros [|x a] [|y b] [|z c] H1 H2; cbn [keep_scope] in *; try done.
  destruct H1 as (h1 & h2 & h3 & H1). destruct H2 as (g1 & g2 & g3 & H2).
  repeat split; auto; [|by eapply IH]. intros h. rewrite (h3 h). auto.
Qed.
Lemma keep_refl G E : in_step G E -> keep G E E.
Proof. induction 1; cbn [keep]; [exact I|]. split; [by apply keep_scope_refl|done]. Qed.
Lemma keep_dom G E E' : keep G E E' -> in_step G E /\ in_step G E'.
Proof.
  revert E E'; induction G as [|s G IH]; intros [|a E] [|b E'] H; cbn [keep] in H; try done.
  - split; constructor.
  - destruct H as [H1 H2]. apply keep_scope_dom in H1 as [h1 h2]. destruct (IH _ _ H2). split; constructor; auto.
Qed.
Lemma keep_trans G A B C : keep G A B -> keep G B C -> keep G A C.
Proof.
  revert A B C; induction G as [|s G IH]; intros [|a A] [|b B] [|c C] H1 H2; cbn [keep] in *; try done.
  destruct H1, H2. split; [by eapply keep_scope_trans|by eapply IH].
Qed.

Lemma lookup_step {A B} n (G : list (list (str * A))) (E : list (list (str * B))) :
  Forall2 (fun s t => map fst s = map fst t) G E -> is_Some (lookup_all n G) <-> is_Some (lookup_all n E).
Proof.
  induction 1 as [|s t G E H _ IH]; cbn [lookup_all]; [split; intros [? [=]]|].
  pose proof (assoc_dom n s t H) as D. destruct (assoc n s), (assoc n t).
  - split; intros _; by eexists.
  - exfalso. destruct (proj1 D ltac:(by eexists)) as [? [=]].
  - exfalso. destruct (proj2 D ltac:(by eexists)) as [? [=]].
  - exact IH.
Qed.

Lemma keep_scope_assoc s a b n e : keep_scope s a b -> assoc n s = Some e -> e_const e = true -> assoc n a = assoc n b.
Proof.
  revert a b; induction s as [|[x q] s IH]; intros [|[y v] a] [|[z w] b] H; cbn [keep_scope fst snd] in H; try done.
  destruct H as (-> & -> & h3 & H). rewrite !assoc_cons. destruct (same x n).
  - intros [= ->] hc. by rewrite (h3 hc).
  - intros. by eapply IH.
Qed.
Lemma keep_lookup G E E' n e : keep G E E' -> lookup_all n G = Some e -> e_const e = true -> lookup_all n E' = lookup_all n E.
Proof.
  revert E E'; induction G as [|s G IH]; intros [|a E] [|b E'] H; cbn [keep] in H; try done.
  destruct H as [H1 H2]. cbn [lookup_all]. destruct (assoc n s) as [e0|] eqn:F.
  - intros [= ->] hc. rewrite (keep_scope_assoc _ _ _ _ _ H1 F hc).
    destruct (keep_scope_dom _ _ _ H1) as [_ hb].
    destruct (proj1 (assoc_dom n s b hb) (ex_intro _ _ F)) as [v ->]. reflexivity.
  - intros hl hc. destruct (keep_scope_dom _ _ _ H1) as [ha hb].
    rewrite (assoc_none_dom n s a ha F), (assoc_none_dom n s b hb F). by eapply IH.
Qed.

Lemma keep_scope_set s a n e v :
  map fst s = map fst a -> assoc n s = Some e -> e_const e = false -> keep_scope s a (set_assoc n v a).
Proof.
  revert a; induction s as [|[x q] s IH]; intros [|[y w] a] H; cbn in H; try discriminate.
  injection H as <- H. rewrite assoc_cons. cbn [set_assoc fst]. destruct (same x n); intros F hc; cbn [keep_scope fst snd].
  - injection F as ->. repeat split; [congruence|by apply keep_scope_refl].
  - repeat split. by eapply IH.
Qed.
Lemma keep_set G E n e v : in_step G E -> lookup_all n G = Some e -> e_const e = false -> keep G E (set_all n v E).
Proof.
  induction 1 as [|s a G E H HF IH]; [discriminate|]. cbn [lookup_all set_all]. destruct (assoc n s) as [e0|] eqn:F.
  - intros [= ->] hc. destruct (proj1 (assoc_dom n s a H) (ex_intro _ _ F)) as [w ->]. cbn [keep]. split.
    + by eapply keep_scope_set.
    + by apply keep_refl.
  - intros hl hc. rewrite (assoc_none_dom n s a H F). cbn [keep]. split; [by apply keep_scope_refl|by eapply IH].
Qed.

(** ** Paths *)
Lemma parts_in_nonempty P k p ps : parts_in P k p = Some ps -> p <> [] -> ps <> [].
Proof.
  destruct p as [|n r]; [done|]. intros H _ ->. cbn [parts_in] in H.
  destruct (find_member k n) as [b|].
  - destruct r; [discriminate|]. destruct (b_ty b) as [|c]; [discriminate|]. destruct (find_class P c) as [k'|]; [|discriminate].
    destruct (parts_in P k' _); discriminate.
  - destruct (find_method k n); [|discriminate]. destruct r; discriminate.
Qed.

(** Only the name of a variable of the method becomes a path of one name. *)
Lemma path_single P k m G p ps n :
  resolve_path P k m G p = Some ps -> path_of ps = [n] ->
  exists e, lookup_all n G = Some e /\ ps = [Part n (e_const e) false (Some (e_ty e)) None].
Proof.
  unfold resolve_path, path_of. destruct p as [|x r]; [discriminate|].
  destruct (is_member_name k x) eqn:M.
  - destruct (parts_in P k (x :: r)) as [qs|] eqn:F; [|discriminate]. intros [= <-] H. exfalso. cbn [map] in H.
    apply (parts_in_nonempty _ _ _ _ F); [discriminate|]. destruct qs; [done|discriminate].
  - cbn [parts_local]. destruct (lookup_all x G) as [e|] eqn:L; [|discriminate]. destruct r as [|y r].
    + intros [= <-] [= <-]. exists e. split; [exact L|reflexivity].
    + destruct (e_ty e) as [|c]; [discriminate|]. destruct (find_class P c) as [k'|]; [|discriminate].
      destruct (parts_in P k' (y :: r)) as [qs|] eqn:F; [|discriminate]. intros [= <-] H. exfalso. cbn [map] in H.
      apply (parts_in_nonempty _ _ _ _ F); [discriminate|]. destruct qs; [done|discriminate].
Qed.
Lemma loc_var h E p n : loc_of h E p = Some (LVar n) -> p = [n].
Proof.
  destruct p as [|x r]; [discriminate|]. cbn [loc_of]. destruct (lookup_all x E) as [d|]; [|discriminate].
  destruct r as [|y r]; [by intros [= <-]|]. destruct (h_ref d) as [o|]; [|discriminate]. intros H. exfalso.
  revert o H. generalize y r. clear. intros y r. revert y. induction r as [|z r IH]; intros y o; cbn [loc_in].
  - destruct (h !! o) as [x|]; [|discriminate]. destruct (assoc y (o_mem x)); discriminate.
  - destruct (h !! o) as [x|]; [|discriminate]. destruct (assoc y (o_mem x)) as [d'|]; [|discriminate].
    destruct (h_ref d') as [o'|]; [|discriminate]. apply IH.
Qed.
Lemma write_var h E l d h' E' : write_loc h E l d = (h', E') ->
  (exists n, l = LVar n /\ E' = set_all n d E /\ h' = h) \/ (exists o n, l = LMem o n /\ E' = E).
Proof. destruct l as [n|o n]; cbn [write_loc]; intros [= <- <-]; [left|right]; eauto. Qed.
