(** Every text the grammar derives is read as the tree it denotes. *)
From Coq Require Import Floats.SpecFloat.
From Verif Require Import Base Base_Proofs Text_Model Tok_Model TypeTable TypeSys_Model Value_Model Parse_Model
  Parse_Spec Parse_Brackets.

Scheme denotes_ind2 := Induction for denotes Sort Prop
  with denotes_args_ind2 := Induction for denotes_args Sort Prop.
Combined Scheme denotes_both from denotes_ind2, denotes_args_ind2.

Definition done {A B} (e : res A) (rest : B) : res (A * B) := let! p := e in Ok (p, rest).

Definition post_set := [OPERATOR_IS; OPERATOR_RANGE; QUESTION_MARK; BRACKET_OPEN; OPERATOR_DECREMENT; OPERATOR_INCREMENT;
              OPERATOR_NOT; OPERATOR_SCOPE].
Definition name_set := [IDENTIFIER; KEYWORD; PARENTHESIS_OPEN; BRACKET_OPEN; OPERATOR_DECREMENT; OPERATOR_INCREMENT;
              OPERATOR_SCOPE] ++ const_types ++ assign_types.

Lemma ty_in_false ty l : ty_in ty l = false <-> ty ∉ l.
Proof. rewrite <- not_true_iff_false, ty_in_spec. reflexivity. Qed.
Lemma ty_out ty l c : ty_in ty l = false -> ty_in c l = true -> ttype_eqb ty c = false.
Proof. rewrite ty_in_false, ty_in_spec, ttype_eqb_neq. congruence. Qed.
Lemma is_op_ops k ty : is_op k ty = ty_in ty (ops k).
Proof. unfold is_op. destruct k as [|[|[|k]]]; destruct ty; reflexivity. Qed.

Record stop (t : token) : Prop := {
  stop_made : well_made t;
  stop_ops : forall k, is_op k (k_type t) = false;
  stop_post : ty_in (k_type t) post_set = false;
  stop_name : ty_in (k_type t) name_set = false }.

Lemma ops_big k : ops (3 + k) = ops 3.
Proof. reflexivity. Qed.

Lemma stop_continues t : well_made t -> ~ continues Open t -> stop t.
Proof.
  intros W H. unfold continues in H. split; [exact W|..].
  - intros k. rewrite is_op_ops. apply ty_in_false. intros E. apply H. left. eauto.
  - apply ty_in_false. intros E. apply H. right. left. exact E.
  - apply ty_in_false. intros E. apply H. unfold name_set, const_types, assign_types in *.
    right. repeat (apply elem_of_cons in E as [E|E];
      [rewrite E; first [right; split; [discriminate|]; apply ty_in_spec; reflexivity
                        |left; apply ty_in_spec; reflexivity]|]).
    inversion E.
Qed.
Lemma stop_types t : well_made t ->
  k_type t ∈ [PARENTHESIS_CLOSE; COMMA; SEMICOLON; COLON; BRACKET_CLOSE; BRACKET_CURLY_OPEN; BRACKET_CURLY_CLOSE; ENDOFFILE] ->
  stop t.
Proof.
  intros W H. repeat (apply elem_of_cons in H as [H|H];
    [split; [exact W|intros [|[|[|k]]]|..]; rewrite H; reflexivity|]). inversion H.
Qed.

Section Complete.
Context (env : penv).
Notation parse := (parse env).
Notation elab := (elab env).

Definition runs (w : what) (ts : list token) (r : res (pexpr * list token)) : Prop :=
  exists n0, forall n, (n0 <= n)%nat -> parse n w ts = r.

Definition after (e : res pexpr) (w : pexpr -> what) (rest : list token) (out : res (pexpr * list token)) : Prop :=
  match e with
  | Ok p => runs (w p) rest out
  | Throw t => out = Throw t
  | UB => out = UB
  | Fuel => out = Fuel
  end.

Definition nameok (t : token) : Prop := well_made t /\ ty_in (k_type t) name_set = false.
Definition fits (e : ending) (rest : list token) : Prop :=
  match e with
  | Closed => True
  | Name => exists t r, rest = t :: r /\ nameok t
  | Open => exists t r, rest = t :: r /\ stop t
  end.
Definition hd_not (l : list ttype) (rest : list token) : Prop :=
  exists t r, rest = t :: r /\ ty_in (k_type t) l = false.
Definition hd_noop (k : nat) (rest : list token) : Prop :=
  exists t r, rest = t :: r /\ forall j, (j < k)%nat -> is_op j (k_type t) = false.

Lemma stop_fits t r e : stop t -> fits e (t :: r).
Proof. intros H. destruct e; cbn; [exact I| |]; exists t, r; split; auto. split; apply H. Qed.
Lemma stop_hd t r : stop t -> hd_not post_set (t :: r).
Proof. intros H. exists t, r. split; auto. apply H. Qed.
Lemma stop_noop t r k : stop t -> hd_noop k (t :: r).
Proof. intros H. exists t, r. split; auto. intros. apply H. Qed.

(** One step of the reader, for all fuel from some point on. *)
Lemma runs_done w ts e rest out (f : pexpr -> what) (w' : what) ts' :
  runs w' ts' (done e rest) -> after e f rest out ->
  (forall n, parse (S n) w ts = let! x := parse n w' ts' in parse n (f (fst x)) (snd x)) ->
  runs w ts out.
Proof.
  intros [n1 H1] H2 E. destruct e as [p| | |]; cbn [done rbind after] in H1, H2.
  - destruct H2 as [n2 H2]. exists (S (max n1 n2)). intros [|n] Hn; [lia|].
    rewrite E, H1 by lia. cbn [rbind fst snd]. apply H2. lia.
  - subst. exists (S n1). intros [|n] Hn; [lia|]. rewrite E, H1 by lia. reflexivity.
  - subst. exists (S n1). intros [|n] Hn; [lia|]. rewrite E, H1 by lia. reflexivity.
  - subst. exists (S n1). intros [|n] Hn; [lia|]. rewrite E, H1 by lia. reflexivity.
Qed.

Definition below (k : nat) : what := match k with O => WInfix | S j => WLevel j end.

Lemma run_level k ts e rest out :
  runs (below k) ts (done e rest) -> after e (WLoop k) rest out -> runs (WLevel k) ts out.
Proof. intros H1 H2. eapply runs_done; eauto. Qed.

Lemma run_loop_stop k p t r : is_op k (k_type t) = false -> runs (WLoop k p) (t :: r) (Ok (p, t :: r)).
Proof. intros H. exists 1%nat. intros [|n] Hn; [lia|]. cbn [Parse_Model.parse]. rewrite H. reflexivity. Qed.

Lemma node_tok k t a b : node env k t a b = node env k (tok (k_type t) (k_text t)) a b.
Proof. destruct k as [|[|[|k]]]; reflexivity. Qed.

Lemma run_loop_op k p t ts e rest out :
  is_op k (k_type t) = true -> runs (below k) ts (done e rest) ->
  after (let! q := e in node env k (tok (k_type t) (k_text t)) p q) (WLoop k) rest out ->
  runs (WLoop k p) (t :: ts) out.
Proof.
  intros Ht [n1 H1] H2. destruct e as [q|e| |]; cbn [done rbind after] in H1, H2.
  - destruct (node env k (tok (k_type t) (k_text t)) p q) as [c|e| |] eqn:En; cbn [after] in H2.
    + destruct H2 as [n2 H2]. exists (S (max n1 n2)). intros [|n] Hn; [lia|].
      cbn [Parse_Model.parse]. rewrite Ht. unfold below in H1. rewrite H1 by lia. cbn [rbind fst snd].
      rewrite node_tok, En. cbn [rbind]. apply H2. lia.
    + subst. exists (S n1). intros [|n] Hn; [lia|].
      cbn [Parse_Model.parse]. rewrite Ht. unfold below in H1. rewrite H1 by lia. cbn [rbind fst snd].
      rewrite node_tok, En. reflexivity.
    + subst. exists (S n1). intros [|n] Hn; [lia|].
      cbn [Parse_Model.parse]. rewrite Ht. unfold below in H1. rewrite H1 by lia. cbn [rbind fst snd].
      rewrite node_tok, En. reflexivity.
    + subst. exists (S n1). intros [|n] Hn; [lia|].
      cbn [Parse_Model.parse]. rewrite Ht. unfold below in H1. rewrite H1 by lia. cbn [rbind fst snd].
      rewrite node_tok, En. reflexivity.
  - subst. exists (S n1). intros [|n] Hn; [lia|].
    cbn [Parse_Model.parse]. rewrite Ht. unfold below in H1. rewrite H1 by lia. reflexivity.
  - subst. exists (S n1). intros [|n] Hn; [lia|].
    cbn [Parse_Model.parse]. rewrite Ht. unfold below in H1. rewrite H1 by lia. reflexivity.
  - subst. exists (S n1). intros [|n] Hn; [lia|].
    cbn [Parse_Model.parse]. rewrite Ht. unfold below in H1. rewrite H1 by lia. reflexivity.
Qed.

Lemma done_after e w rest out : (forall p, e = Ok p -> runs (w p) rest (Ok (p, rest))) ->
  out = done e rest -> after e w rest out.
Proof. intros H ->. destruct e; cbn; auto. Qed.

Lemma after_loop_done k e rest : hd_noop (S k) rest -> after e (WLoop k) rest (done e rest).
Proof.
  intros (t & r & -> & H). destruct e as [p| | |]; cbn [after done rbind]; try reflexivity.
  apply run_loop_stop. apply H. lia.
Qed.

(** Prefix operators. *)
Lemma sign_tok t a : sign_node env t a = sign_node env (tok (k_type t) (k_text t)) a.
Proof. reflexivity. Qed.

Lemma run_infix_plain t ts e rest out : ty_in (k_type t) [MATH_ADDITION; MATH_SUBTRACT] = false ->
  ttype_eqb (k_type t) OPERATOR_NOT = false ->
  runs WTerm (t :: ts) (done e rest) -> after e WPostfix rest out -> runs WInfix (t :: ts) out.
Proof. intros H1 H2 H3 H4. eapply runs_done; eauto. intros n. cbn [Parse_Model.parse]. rewrite H1, H2. reflexivity. Qed.

Ltac fuel n1 := exists (S n1); intros [|n] Hn; [lia|].

Lemma run_infix_pre t ts e rest out (mk : pexpr -> res pexpr) :
  (forall n, parse (S n) WInfix (t :: ts) =
     let! x := (let! y := parse n WTerm ts in let! e := mk (fst y) in Ok (e, snd y)) in
     parse n (WPostfix (fst x)) (snd x)) ->
  runs WTerm ts (done e rest) -> after (let! p := e in mk p) WPostfix rest out -> runs WInfix (t :: ts) out.
Proof.
  intros E [n1 H1] H2. destruct e as [p| | |]; cbn [done rbind after] in H1, H2.
  - destruct (mk p) as [q| | |] eqn:Em; cbn [after] in H2.
    + destruct H2 as [n2 H2]. fuel (max n1 n2). rewrite E, H1 by lia. cbn [rbind fst snd]. rewrite Em. cbn [rbind fst snd]. apply H2. lia.
    + subst. fuel n1. rewrite E, H1 by lia. cbn [rbind fst snd]. rewrite Em. reflexivity.
    + subst. fuel n1. rewrite E, H1 by lia. cbn [rbind fst snd]. rewrite Em. reflexivity.
    + subst. fuel n1. rewrite E, H1 by lia. cbn [rbind fst snd]. rewrite Em. reflexivity.
  - subst. fuel n1. rewrite E, H1 by lia. reflexivity.
  - subst. fuel n1. rewrite E, H1 by lia. reflexivity.
  - subst. fuel n1. rewrite E, H1 by lia. reflexivity.
Qed.

(** Suffixes. *)
Lemma run_postfix_repeat p t r out : ty_in (k_type t) [OPERATOR_IS; OPERATOR_RANGE; QUESTION_MARK] = false ->
  runs (WRepeat p) (t :: r) out -> runs (WPostfix p) (t :: r) out.
Proof.
  intros H [n1 H1]. fuel n1. cbn [Parse_Model.parse].
  rewrite (ty_out _ _ OPERATOR_IS H eq_refl), (ty_out _ _ OPERATOR_RANGE H eq_refl), (ty_out _ _ QUESTION_MARK H eq_refl).
  apply H1. lia.
Qed.
Lemma run_repeat_stop p t r : ty_in (k_type t) post_set = false -> runs (WRepeat p) (t :: r) (Ok (p, t :: r)).
Proof.
  intros H. exists 1%nat. intros [|n] Hn; [lia|]. cbn [Parse_Model.parse].
  rewrite (ty_out _ _ BRACKET_OPEN H eq_refl), (ty_out _ _ OPERATOR_NOT H eq_refl), (ty_out _ _ OPERATOR_SCOPE H eq_refl).
  replace (ty_in (k_type t) [OPERATOR_DECREMENT; OPERATOR_INCREMENT]) with false; [reflexivity|].
  symmetry. apply ty_in_false. apply ty_in_false in H. intros E. apply H.
  repeat (apply elem_of_cons in E as [E|E]; [rewrite E; apply ty_in_spec; reflexivity|]). inversion E.
Qed.
Lemma run_repeat_step p t r out : k_type t ∈ step_types ->
  runs (WRepeat (PUn (k_type t) (k_text t) false p)) r out -> runs (WRepeat p) (t :: r) out.
Proof.
  intros H [n1 H1]. fuel n1. cbn [Parse_Model.parse].
  repeat (apply elem_of_cons in H as [H|H]; [rewrite H in *; cbn; apply H1; lia|]). inversion H.
Qed.
Lemma run_repeat_not p t r out : k_type t = OPERATOR_NOT ->
  runs (WRepeat (PUn OPERATOR_VALIDATE [] false p)) r out -> runs (WRepeat p) (t :: r) out.
Proof. intros H [n1 H1]. fuel n1. cbn [Parse_Model.parse]. rewrite H. cbn. apply H1. lia. Qed.

Lemma after_map e w (f : pexpr -> pexpr) (w' : pexpr -> what) rest rest' out :
  (forall p, runs (w (f p)) rest out -> runs (w' p) rest' out) ->
  after (let! p := e in Ok (f p)) w rest out -> after e w' rest' out.
Proof. intros H. destruct e; cbn; auto. Qed.

(** Names. *)
Lemma made_const t : well_made t -> cat_constant t = ty_in (k_type t) const_types.
Proof.
  intros [H _]. unfold cat_constant. destruct (ty_in (k_type t) const_types) eqn:E.
  - apply ty_in_spec, H in E. rewrite E. reflexivity.
  - apply ty_in_false in E. destruct (k_cat t) eqn:K; auto. exfalso. apply E, H. reflexivity.
Qed.
Lemma made_assign t : well_made t -> cat_assignment t = ty_in (k_type t) assign_types.
Proof.
  intros [_ H]. unfold cat_assignment. destruct (ty_in (k_type t) assign_types) eqn:E.
  - apply ty_in_spec, H in E. rewrite E. reflexivity.
  - apply ty_in_false in E. destruct (k_cat t) eqn:K; auto. exfalso. apply E, H. reflexivity.
Qed.
Lemma ty_sub ty l l' : ty_in ty l = false -> (forall c, c ∈ l' -> c ∈ l) -> ty_in ty l' = false.
Proof. rewrite !ty_in_false. auto. Qed.

Lemma run_name t u r : k_type t = IDENTIFIER -> nameok u ->
  runs WTerm (t :: u :: r) (done (elab (XName (k_text t))) (u :: r)).
Proof.
  intros Ht [W H]. exists 2%nat. intros [|[|n]] Hn; try lia.
  cbn [Parse_Model.parse]. rewrite Ht. cbn [literal]. rewrite ttype_eqb_refl.
  cbn [elab]. unfold resolve_name, named. destruct (pe_name env (k_text t)) as [k|]; [|reflexivity].
  rewrite (ty_out _ _ OPERATOR_SCOPE H eq_refl). cbn [rbind fst snd Parse_Model.parse].
  rewrite made_const, made_assign by exact W.
  rewrite (ty_sub _ _ const_types H), (ty_sub _ _ assign_types H).
  2: { intros c Hc. unfold name_set. apply elem_of_app. right. apply elem_of_app. right. exact Hc. }
  2: { intros c Hc. unfold name_set. apply elem_of_app. right. apply elem_of_app. left. exact Hc. }
  rewrite (ty_out _ _ IDENTIFIER H eq_refl), (ty_out _ _ KEYWORD H eq_refl), (ty_out _ _ PARENTHESIS_OPEN H eq_refl),
    (ty_out _ _ BRACKET_OPEN H eq_refl), (ty_out _ _ OPERATOR_DECREMENT H eq_refl), (ty_out _ _ OPERATOR_INCREMENT H eq_refl).
  reflexivity.
Qed.

(** The behaviour of [WTerm] on a name followed by [u]. *)
Lemma term_name n t u r : k_type t = IDENTIFIER -> k_type u <> OPERATOR_SCOPE ->
  parse (S n) WTerm (t :: u :: r) = let! k := named env (k_text t) in parse n (WName (k_text t) k) (u :: r).
Proof.
  intros Ht Hu. cbn [Parse_Model.parse]. rewrite Ht. cbn [literal]. rewrite ttype_eqb_refl.
  unfold resolve_name, named. destruct (pe_name env (k_text t)) as [k|]; [|reflexivity].
  teq. reflexivity.
Qed.

Definition starters := [MATH_ADDITION; MATH_SUBTRACT; OPERATOR_NOT; IDENTIFIER; KEYWORD; PARENTHESIS_OPEN] ++ const_types.
Definition term_starters := [IDENTIFIER; KEYWORD; PARENTHESIS_OPEN] ++ const_types.

Lemma term_starts s e ts x : denotes s Term e ts x -> exists t r, ts = t :: r /\ ty_in (k_type t) term_starters = true.
Proof.
  intros H. inversion H; subst; do 2 eexists; (split; [reflexivity|]);
    try (match goal with H : k_type ?t = _ |- context [k_type ?t] => rewrite H end; reflexivity).
  apply ty_in_spec. unfold term_starters. apply elem_of_app. right. assumption.
Qed.
Lemma starts s p e ts x : denotes s p e ts x -> exists t r, ts = t :: r /\ ty_in (k_type t) starters = true.
Proof.
  intros H. induction H; subst;
    try (destruct IHdenotes as (t0 & r0 & -> & IH); do 2 eexists; (split; [reflexivity|exact IH]));
    try (destruct IHdenotes1 as (t0 & r0 & -> & IH); do 2 eexists; (split; [reflexivity|exact IH]));
    try (do 2 eexists; (split; [reflexivity|]);
      match goal with H : k_type ?t = _ |- context [k_type ?t] => rewrite H end; reflexivity).
  - do 2 eexists. split; [reflexivity|]. apply ty_in_spec. unfold starters. apply elem_of_app. right. assumption.
  - do 2 eexists. split; [reflexivity|]. destruct H as [H|H]; rewrite H; reflexivity.
Qed.

Definition reads_at (p : place) (e : ending) (ts : list token) (x : sx) : Prop :=
  Forall well_made ts ->
  match p with
  | Term => forall rest, fits e rest -> runs WTerm (ts ++ rest) (done (elab x) rest)
  | Prefixed => forall rest out, fits e rest -> after (elab x) WPostfix rest out -> runs WInfix (ts ++ rest) out
  | Suffixed => forall rest out, fits e rest -> hd_not [OPERATOR_IS; OPERATOR_RANGE; QUESTION_MARK] rest ->
      after (elab x) WRepeat rest out -> runs WInfix (ts ++ rest) out
  | Infix => forall rest, fits e rest -> hd_not post_set rest -> runs WInfix (ts ++ rest) (done (elab x) rest)
  | Lvl k => (k <= 3)%nat -> forall rest out, fits e rest -> hd_not post_set rest -> hd_noop k rest ->
      after (elab x) (WLoop k) rest out -> runs (WLevel k) (ts ++ rest) out
  end.
Definition args_at (ts : list token) (l : list sx) : Prop :=
  Forall well_made ts -> forall c r, well_made c -> k_type c = PARENTHESIS_CLOSE ->
  exists n0, forall n m, (n0 <= n)%nat -> (n0 <= m)%nat ->
    args_loop (parse n (WLevel 3)) m (c :: r) (ts ++ c :: r) = elab_args env l.

Lemma reads_whole e ts x t r : reads_at (Lvl 3) e ts x -> Forall well_made ts -> stop t ->
  runs (WLevel 3) (ts ++ t :: r) (done (elab x) (t :: r)).
Proof.
  intros H W S. apply (H W); [lia|apply stop_fits; exact S|apply stop_hd; exact S|apply stop_noop; exact S|].
  apply after_loop_done. apply stop_noop. exact S.
Qed.


Lemma not_nil_in ty l : ty ∈ l -> ty_in NIL l = false -> ty <> NIL.
Proof. intros H E ->. apply ty_in_spec in H. congruence. Qed.

Lemma no_nil :
  (forall p e ts x, denotes true p e ts x -> Forall (fun t => k_type t <> NIL) ts) /\
  (forall ts l, denotes_args true ts l -> Forall (fun t => k_type t <> NIL) ts).
Proof.
  assert (O : forall k, ty_in NIL (ops k) = false) by (intros [|[|[|k]]]; reflexivity).
  apply (denotes_both true (fun p e ts x _ => Forall (fun t => k_type t <> NIL) ts)
                           (fun ts l _ => Forall (fun t => k_type t <> NIL) ts));
    intros; repeat (first [apply Forall_app; split|apply Forall_cons; split|apply Forall_nil; exact I|assumption
      |congruence|eapply not_nil_in; [eassumption|reflexivity]|eapply not_nil_in; [eassumption|apply O]]).
  all: try (match goal with H : _ -> k_type ?t = IDENTIFIER |- _ => rewrite H by reflexivity; discriminate end).
  - match goal with H : Forall _ (u :: ts) |- _ => apply Forall_cons in H as [_ H]; exact H end.
  - match goal with H : _ \/ _ |- _ => destruct H as [H|H]; rewrite H; discriminate end.
  - match goal with H : true = true -> j = [] |- _ => rewrite H by reflexivity end. constructor.
Qed.

Lemma nested_single op cl t : k_type t <> op -> k_type t <> cl -> nested op cl [t].
Proof. intros. apply nested_other; auto. constructor. Qed.
Lemma nested_around op cl o b c : k_type o = op -> k_type c = cl -> nested op cl b -> nested op cl (o :: b ++ [c]).
Proof. intros. apply nested_pair; auto. constructor. Qed.

Lemma nested_all :
  (forall p e ts x, denotes true p e ts x -> nested PARENTHESIS_OPEN PARENTHESIS_CLOSE ts) /\
  (forall ts l, denotes_args true ts l -> nested PARENTHESIS_OPEN PARENTHESIS_CLOSE ts).
Proof.
  assert (N : forall t l, k_type t ∈ l -> ty_in PARENTHESIS_OPEN l = false -> ty_in PARENTHESIS_CLOSE l = false ->
    k_type t <> PARENTHESIS_OPEN /\ k_type t <> PARENTHESIS_CLOSE).
  { intros t l H E1 E2. apply ty_in_spec in H. split; intros E; rewrite E in H; congruence. }
  assert (C : forall t r, k_type t <> PARENTHESIS_OPEN /\ k_type t <> PARENTHESIS_CLOSE ->
    nested PARENTHESIS_OPEN PARENTHESIS_CLOSE r -> nested PARENTHESIS_OPEN PARENTHESIS_CLOSE (t :: r)).
  { intros t r [? ?] ?. apply nested_other; assumption. }
  assert (Nil : nested PARENTHESIS_OPEN PARENTHESIS_CLOSE []) by constructor.
  assert (Q : forall t c, k_type t = c -> c <> PARENTHESIS_OPEN -> c <> PARENTHESIS_CLOSE ->
    k_type t <> PARENTHESIS_OPEN /\ k_type t <> PARENTHESIS_CLOSE) by (intros; subst; split; assumption).
  assert (O : forall k t, k_type t ∈ ops k -> k_type t <> PARENTHESIS_OPEN /\ k_type t <> PARENTHESIS_CLOSE).
  { intros k t H. apply (N t (ops k) H); destruct k as [|[|[|k]]]; reflexivity. }
  apply (denotes_both true (fun p e ts x _ => nested PARENTHESIS_OPEN PARENTHESIS_CLOSE ts)
                           (fun ts l _ => nested PARENTHESIS_OPEN PARENTHESIS_CLOSE ts)); intros;
    repeat first
      [ assumption
      | match goal with H : true = true -> ?j = [] |- context [?j] => rewrite H by reflexivity end
      | match goal with H : true = true -> k_type ?t = _ |- context [?t :: _] => specialize (H eq_refl) end
      | match goal with Ho : k_type ?o = PARENTHESIS_OPEN, Hc : k_type ?c = PARENTHESIS_CLOSE |- nested _ _ (?o :: _ ++ [?c]) =>
          apply nested_around; [exact Ho|exact Hc|] end
      | match goal with H : k_type ?t = ?c |- nested _ _ (?t :: _) => apply C; [apply (Q t c H); discriminate|] end
      | match goal with H : k_type ?t ∈ ops ?k |- nested _ _ (?t :: _) => apply C; [apply (O k t H)|] end
      | match goal with H : k_type ?t ∈ ?l |- nested _ _ (?t :: _) => apply C; [apply (N t l H); reflexivity|] end
      | match goal with H : _ \/ _ |- nested _ _ (?t :: _) => apply C; [destruct H as [H|H]; apply (Q t _ H); discriminate|] end
      | apply nested_app; [discriminate| |] | apply nested_app
      | progress cbn [app] ].
Qed.

Ltac made := repeat match goal with
  | H : Forall well_made (_ ++ _) |- _ => apply Forall_app in H as [? ?]
  | H : Forall well_made (_ :: _) |- _ => apply Forall_cons in H as [? ?]
  end.
Ltac stopper := apply stop_types; [assumption|]; match goal with H : k_type _ = _ |- _ => rewrite H; apply ty_in_spec; reflexivity end.

(** [runs] of a term read by one bracketed sub-expression. *)
Lemma run_wrapped w ts w' ts' e c r (mk : pexpr -> res pexpr) :
  runs w' ts' (done e (c :: r)) -> k_type c = PARENTHESIS_CLOSE ->
  (forall n, parse (S n) w ts =
     let! y := parse n w' ts' in let! _ := expect PARENTHESIS_CLOSE (snd y) in
     let! q := mk (fst y) in Ok (q, tail (snd y))) ->
  runs w ts (done (let! p := e in mk p) r).
Proof.
  intros [n1 H1] Hc E. exists (S n1). intros [|n] Hn; [lia|]. rewrite E, H1 by lia.
  destruct e as [p| | |]; cbn [done rbind fst snd expect]; try reflexivity. teq. cbn [rbind tail].
  destruct (mk p); reflexivity.
Qed.
Lemma runs_step w ts w' ts' out : runs w' ts' out -> (forall n, parse (S n) w ts = parse n w' ts') -> runs w ts out.
Proof. intros [n1 H1] E. exists (S n1). intros [|n] Hn; [lia|]. rewrite E. apply H1. lia. Qed.

Lemma elab_done_ok {A} (e : res A) (rest : list token) : done (let! p := e in Ok p) rest = done e rest.
Proof. destruct e; reflexivity. Qed.

Theorem reads :
  (forall p e ts x, denotes true p e ts x -> reads_at p e ts x) /\
  (forall ts l, denotes_args true ts l -> args_at ts l).
Proof.
  apply (denotes_both true (fun p e ts x _ => reads_at p e ts x) (fun ts l _ => args_at ts l)).
  - (* literal *)
    intros t Ht W rest _. exists 1%nat. intros [|n] Hn; [lia|]. cbn [Parse_Model.parse app elab].
    repeat (apply elem_of_cons in Ht as [Ht|Ht]; [rewrite Ht; reflexivity|]). inversion Ht.
  - (* name *)
    intros t Ht W rest (u & r & -> & Hu). apply run_name; assumption.
  - (* x++ *)
    intros t u Ht Hu W rest _. made. exists 2%nat. intros [|[|n]] Hn; try lia. cbn [app].
    rewrite term_name; [|exact Ht|intros E; rewrite E in Hu; apply ty_in_spec in Hu; discriminate].
    cbn [elab]. destruct (named env (k_text t)) as [k| | |]; cbn [rbind done]; try reflexivity.
    cbn [Parse_Model.parse]. rewrite made_const, made_assign by assumption.
    repeat (apply elem_of_cons in Hu as [Hu|Hu]; [rewrite Hu; cbn; unfold step_node; rewrite Hu; cbn [k_type k_text tok];
      destruct (sym_atomic k); reflexivity|]). inversion Hu.
  - (* brackets *)
    intros o ts c e x Ho Hc D IH W rest _. made. cbn [app]. rewrite <- app_assoc. cbn [app].
    rewrite <- elab_done_ok.
    apply (run_wrapped WTerm (o :: ts ++ c :: rest) (WLevel 3) (ts ++ c :: rest) (elab x) c rest (fun p => Ok p));
      [apply (reads_whole e); [exact IH|assumption|stopper]|exact Hc|].
    intros n. cbn [Parse_Model.parse]. rewrite Ho. reflexivity.
  - (* call *)
    intros t o ts c l Ht Ho Hc Hn D IH W rest _. made. cbn [app]. rewrite <- app_assoc. cbn [app].
    destruct (IH ltac:(assumption) c rest ltac:(assumption) Hc) as [n1 R1].
    exists (S (S n1)). intros [|[|n]] Hn'; try lia.
    rewrite term_name; [|exact Ht|congruence]. cbn [elab].
    destruct (named env (k_text t)) as [k| | |]; cbn [rbind done]; try reflexivity.
    cbn [Parse_Model.parse]. rewrite made_const, made_assign by assumption. rewrite Ho. cbn [ty_in const_types assign_types existsb ttype_eqb tnum N.eqb Pos.eqb orb].
    unfold find_parenthesis. rewrite (find_match PARENTHESIS_OPEN PARENTHESIS_CLOSE NIL); auto; try discriminate.
    2: { eapply (proj2 nested_all). exact D. }
    2: { eapply (proj2 no_nil). exact D. }
    cbn [rbind]. rewrite R1 by lia. fold (elab_args env).
    destruct (elab_args env l) as [ps| | |]; cbn [rbind]; try reflexivity.
    all: destruct (call_node env (k_text t) ps); reflexivity.
  - (* T e *)
    intros t u ts e x Ht Hu D IH W rest (v & r & -> & Hv). made.
    assert (Hw : Forall well_made (u :: ts)) by (constructor; assumption).
    destruct (reads_whole _ _ _ v r IH Hw Hv) as [n1 R1].
    exists (S (S n1)). intros [|[|n]] Hn'; try lia. cbn [app] in *.
    assert (Hns : k_type u <> OPERATOR_SCOPE) by (intros E; rewrite E in Hu; apply ty_in_spec in Hu; discriminate).
    rewrite term_name; [|exact Ht|exact Hns]. cbn [elab].
    destruct (named env (k_text t)) as [k| | |]; cbn [rbind done]; try reflexivity.
    cbn [Parse_Model.parse]. rewrite made_const by assumption.
    replace (ty_in (k_type u) const_types || ttype_eqb (k_type u) IDENTIFIER || ttype_eqb (k_type u) KEYWORD) with true.
    2: { symmetry. apply elem_of_cons in Hu as [Hu|Hu]; [rewrite Hu; reflexivity|].
         apply elem_of_cons in Hu as [Hu|Hu]; [rewrite Hu; reflexivity|].
         apply ty_in_spec in Hu. rewrite Hu. reflexivity. }
    destruct k; try reflexivity. rewrite R1 by lia. destruct (elab x); reflexivity.
  - (* cast<T>(e) *)
    intros w lt t gt o ts c e x Hw Hw' Hlt Hgt Ho Hc Ht D IH W rest _. made. cbn [app]. rewrite <- app_assoc. cbn [app].
    eapply (runs_step WTerm _ (WWord (k_text w)) (lt :: t :: gt :: o :: ts ++ c :: rest)).
    2: { intros n. cbn [Parse_Model.parse]. rewrite Hw. reflexivity. }
    rewrite Hw'. cbn [elab].
    destruct (reads_whole _ _ _ c rest IH ltac:(assumption) ltac:(stopper)) as [n1 R1].
    exists (S n1). intros [|n] Hn; [lia|].
    cbn [Parse_Model.parse]. change (str_eqb ($"cast") ($"cast")) with true. cbn [expect tail]. teq. cbn [rbind].
    unfold type_name, resolve_name, named. destruct (pe_name env (k_text t)) as [k|]; [|reflexivity].
    rewrite Hgt. cbn [ttype_eqb tnum N.eqb Pos.eqb rbind fst snd].
    destruct k; try reflexivity. cbn [rbind fst snd tail]. cbn [expect]. teq. cbn [rbind tail]. 
    rewrite R1 by lia. destruct (elab x); cbn [done rbind fst snd expect]; try reflexivity. teq. cbn [rbind tail].
    all: destruct (cast_node env t0 a); reflexivity.
  - (* typeid(e) *)
    intros w o ts c e x Hw Hw' Ho Hc D IH W rest _. made. cbn [app]. rewrite <- app_assoc. cbn [app].
    eapply (runs_step WTerm _ (WWord (k_text w)) (o :: ts ++ c :: rest)).
    2: { intros n. cbn [Parse_Model.parse]. rewrite Hw. reflexivity. }
    rewrite Hw'. cbn [elab].
    apply (run_wrapped (WWord ($"typeid")) (o :: ts ++ c :: rest) (WLevel 3) (ts ++ c :: rest) (elab x) c rest (fun p => Ok (PTypeid p)));
      [apply (reads_whole e); [exact IH|assumption|stopper]|exact Hc|].
    intros n. cbn [Parse_Model.parse]. change (str_eqb ($"typeid") ($"cast")) with false.
    change (str_eqb ($"typeid") ($"typeid")) with true. cbn [expect tail]. teq. reflexivity.
  - (* x = e *)
    intros t u ts e x Ht Hu D IH W rest (v & r & -> & Hv). made.
    destruct (reads_whole _ _ _ v r IH ltac:(assumption) Hv) as [n1 R1].
    exists (S (S n1)). intros [|[|n]] Hn'; try lia. cbn [app] in *.
    assert (Hns : k_type u <> OPERATOR_SCOPE) by (intros E; rewrite E in Hu; apply ty_in_spec in Hu; discriminate).
    rewrite term_name; [|exact Ht|exact Hns]. cbn [elab].
    destruct (named env (k_text t)) as [k| | |]; cbn [rbind done]; try reflexivity.
    cbn [Parse_Model.parse]. rewrite made_const, made_assign by assumption.
    replace (ty_in (k_type u) const_types || ttype_eqb (k_type u) IDENTIFIER || ttype_eqb (k_type u) KEYWORD) with false.
    2: { symmetry. repeat (apply elem_of_cons in Hu as [Hu|Hu]; [rewrite Hu; reflexivity|]). inversion Hu. }
    replace (ty_in (k_type u) assign_types) with true by (symmetry; apply ty_in_spec; exact Hu).
    rewrite R1 by lia. destruct (elab x) as [p| | |]; cbn [done rbind fst snd]; try reflexivity.
    all: change (assign_node env u (k_text t) k p) with (assign_node env (tok (k_type u) []) (k_text t) k p).
    all: destruct (assign_node env (tok (k_type u) []) (k_text t) k p); reflexivity.
  - (* term *)
    intros e ts x D IH W rest out Hf Ha. destruct (term_starts _ _ _ _ D) as (t & r & -> & Ht).
    cbn [app] in *. eapply run_infix_plain; [| |apply (IH W); exact Hf|exact Ha].
    + apply ty_in_false. intros E. repeat (apply elem_of_cons in E as [E|E]; [rewrite E in Ht; discriminate|]). inversion E.
    + apply ttype_eqb_neq. intros E. rewrite E in Ht. discriminate.
  - (* +e -e *)
    intros t e ts x Ht D IH W rest out Hf Ha. made. cbn [app].
    eapply (run_infix_pre t _ _ rest out (sign_node env (tok (k_type t) (k_text t)))); [|apply IH; [assumption|exact Hf]|exact Ha].
    intros n. cbn [Parse_Model.parse].
    replace (ty_in (k_type t) [MATH_ADDITION; MATH_SUBTRACT]) with true; [reflexivity|].
    destruct Ht as [Ht|Ht]; rewrite Ht; reflexivity.
  - (* !e *)
    intros t e ts x Ht D IH W rest out Hf Ha. made. cbn [app].
    eapply (run_infix_pre t _ _ rest out (fun p => Ok (PNot (k_text t) p))); [|apply IH; [assumption|exact Hf]|exact Ha].
    intros n. cbn [Parse_Model.parse]. rewrite Ht. reflexivity.
  - (* no suffix *)
    intros e ts x D IH W rest out Hf (t & r & -> & Ht) Ha. apply (IH W); [exact Hf|].
    destruct (elab x) as [p| | |]; cbn [after] in *; auto. apply run_postfix_repeat; assumption.
  - (* e++ *)
    intros e ts t x D IH He Ht W rest out _ _ Ha. made. rewrite <- app_assoc. cbn [app].
    rewrite He in * by reflexivity. apply IH; [assumption|exact I| |].
    + exists t, rest. split; [reflexivity|].
      repeat (apply elem_of_cons in Ht as [Ht|Ht]; [rewrite Ht; reflexivity|]). inversion Ht.
    + cbn [elab] in Ha. eapply after_map; [|exact Ha]. intros p. apply run_repeat_step. exact Ht.
  - (* e! *)
    intros e ts t x D IH He Ht W rest out _ _ Ha. made. rewrite <- app_assoc. cbn [app].
    specialize (He eq_refl). apply IH; [assumption| | |].
    + destruct e; [exact I| |congruence]. exists t, rest. split; auto. split; [assumption|]. rewrite Ht. reflexivity.
    + exists t, rest. split; [reflexivity|]. rewrite Ht. reflexivity.
    + cbn [elab] in Ha. eapply after_map; [|exact Ha]. intros p. apply run_repeat_not. exact Ht.
  - (* suffixed *)
    intros e ts x D IH W rest Hf (t & r & -> & Ht). apply (IH W); [exact Hf| |].
    + exists t, r. split; auto. eapply ty_sub; [exact Ht|]. intros c Hc.
      repeat (apply elem_of_cons in Hc as [Hc|Hc]; [rewrite Hc; apply ty_in_spec; reflexivity|]). inversion Hc.
    + destruct (elab x) as [p| | |]; cbn [after done rbind]; try reflexivity. apply run_repeat_stop. exact Ht.
  - (* is T *)
    intros e ts i t x D IH He Hi Ht W rest _ (u & r & -> & Hu). made. rewrite <- app_assoc. cbn [app].
    specialize (He eq_refl). apply IH; [assumption| |].
    + destruct e; [exact I| |congruence]. eexists _, _. split; [reflexivity|]. split; [assumption|]. rewrite Hi. reflexivity.
    + cbn [elab]. destruct (elab x) as [p| | |]; cbn [after done rbind]; try reflexivity.
      exists 1%nat. intros [|n] Hn; [lia|]. cbn [Parse_Model.parse]. rewrite Hi. cbn [ttype_eqb tnum N.eqb Pos.eqb].
      unfold resolve_name, named. destruct (pe_name env (k_text t)) as [k|]; [|reflexivity].
      rewrite (ty_out _ _ OPERATOR_SCOPE Hu eq_refl). reflexivity.
  - (* c ? a : b *)
    intros e ts q e1 ts1 c e2 ts2 x y z D IH He Hq D1 IH1 Hc D2 IH2 W rest (v & r & -> & Hv) _. made.
    rewrite <- app_assoc. cbn [app]. rewrite <- app_assoc. cbn [app].
    specialize (He eq_refl). apply IH; [assumption| |].
    + destruct e; [exact I| |congruence]. eexists _, _. split; [reflexivity|]. split; [assumption|]. rewrite Hq. reflexivity.
    + cbn [elab]. destruct (elab x) as [p| | |]; cbn [after done rbind]; try reflexivity.
      destruct (reads_whole _ _ _ c (ts2 ++ v :: r) IH1 ltac:(assumption) ltac:(stopper)) as [n1 R1].
      destruct (reads_whole _ _ _ v r IH2 ltac:(assumption) Hv) as [n2 R2].
      exists (S (max n1 n2)). intros [|n] Hn; [lia|]. cbn [Parse_Model.parse]. rewrite Hq. cbn [ttype_eqb tnum N.eqb Pos.eqb].
      destruct (starts _ _ _ _ _ D1) as (u & r1 & -> & Hu). cbn [app] in *.
      replace (ttype_eqb (k_type u) COLON) with false.
      2: { symmetry. apply ttype_eqb_neq. intros E. rewrite E in Hu. discriminate. }
      rewrite R1 by lia. destruct (elab y) as [p1| | |]; cbn [done rbind fst snd]; try reflexivity.
      cbn [expect]. teq. cbn [rbind tail]. rewrite R2 by lia.
      destruct (elab z) as [p2| | |]; cbn [done rbind fst snd]; try reflexivity.
      all: destruct (ternary_node p (Some p1) p2); reflexivity.
  - (* c ?: b *)
    intros e ts q c e2 ts2 x z D IH He Hq Hc D2 IH2 W rest (v & r & -> & Hv) _. made.
    rewrite <- app_assoc. cbn [app].
    specialize (He eq_refl). apply IH; [assumption| |].
    + destruct e; [exact I| |congruence]. eexists _, _. split; [reflexivity|]. split; [assumption|]. rewrite Hq. reflexivity.
    + cbn [elab]. destruct (elab x) as [p| | |]; cbn [after done rbind]; try reflexivity.
      destruct (reads_whole _ _ _ v r IH2 ltac:(assumption) Hv) as [n2 R2].
      exists (S n2). intros [|n] Hn; [lia|]. cbn [Parse_Model.parse]. rewrite Hq. cbn [ttype_eqb tnum N.eqb Pos.eqb].
      teq. cbn [rbind fst snd expect]. teq. cbn [rbind tail]. rewrite R2 by lia.
      destruct (elab z) as [p2| | |]; cbn [done rbind fst snd]; try reflexivity.
      all: destruct (ternary_node p None p2); reflexivity.
  - (* level 0 *)
    intros e ts x D IH W _ rest out Hf Hh Hk Ha.
    apply (run_level 0 (ts ++ rest) (elab x) rest out); [apply (IH W); assumption|exact Ha].
  - (* level k + 1 *)
    intros k e ts x D IH W Hk rest out Hf Hh Hn Ha.
    apply (run_level (S k) (ts ++ rest) (elab x) rest out); [|exact Ha].
    cbn [below]. apply (IH W); [lia|exact Hf|exact Hh| |apply after_loop_done; exact Hn].
    destruct Hn as (t & r & -> & Hn). exists t, r. split; [reflexivity|]. intros; apply Hn; lia.
  - (* a * b *)
    intros e1 ts1 t e2 ts2 x y D1 IH1 He Ht D2 IH2 W _ rest out Hf Hh Hn Ha. made. rewrite <- app_assoc. cbn [app].
    specialize (He eq_refl).
    apply IH1; [assumption|lia| | | |].
    + destruct e1; [exact I| |congruence]. eexists _, _. split; [reflexivity|]. split; [assumption|].
      repeat (apply elem_of_cons in Ht as [Ht|Ht]; [rewrite Ht; reflexivity|]). inversion Ht.
    + eexists _, _. split; [reflexivity|].
      repeat (apply elem_of_cons in Ht as [Ht|Ht]; [rewrite Ht; reflexivity|]). inversion Ht.
    + eexists _, _. split; [reflexivity|]. intros; lia.
    + cbn [elab] in Ha. destruct (elab x) as [p| | |]; cbn [after rbind] in *; auto.
      eapply (run_loop_op 0); [rewrite is_op_ops; apply ty_in_spec; exact Ht|cbn [below]; apply IH2; assumption|exact Ha].
  - (* a op b *)
    intros k e1 ts1 t e2 ts2 x y D1 IH1 He Ht D2 IH2 W Hk rest out Hf Hh Hn Ha. made. rewrite <- app_assoc. cbn [app].
    specialize (He eq_refl).
    assert (Hset : ty_in (k_type t) name_set = false /\ ty_in (k_type t) post_set = false /\
                   forall j, (j < S k)%nat -> is_op j (k_type t) = false).
    { destruct k as [|[|[|k]]]; [| | |lia];
      repeat (apply elem_of_cons in Ht as [Ht|Ht];
        [rewrite Ht; split; [reflexivity|split; [reflexivity|intros [|[|[|j]]] Hj; solve [lia|reflexivity]]]|]); inversion Ht. }
    destruct Hset as (S1 & S2 & S3).
    apply IH1; [assumption|lia| | | |].
    + destruct e1; [exact I| |congruence]. eexists _, _. split; [reflexivity|]. split; assumption.
    + eexists _, _. split; [reflexivity|exact S2].
    + eexists _, _. split; [reflexivity|exact S3].
    + cbn [elab] in Ha. destruct (elab x) as [p| | |]; cbn [after rbind] in *; auto.
      eapply (run_loop_op (S k)); [rewrite is_op_ops; apply ty_in_spec; exact Ht| |exact Ha].
      cbn [below]. apply IH2; [assumption|lia|exact Hf|exact Hh| |apply after_loop_done; exact Hn].
      destruct Hn as (u & r & -> & Hn). exists u, r. split; [reflexivity|]. intros; apply Hn; lia.
  - (* no arguments *)
    intros W c r Hc Hc'. exists 1%nat. intros n [|m] Hn Hm; [lia|]. cbn [app args_loop]. rewrite Nat.eqb_refl. reflexivity.
  - (* last argument *)
    intros e ts x D IH W c r Hc Hc'.
    destruct (reads_whole _ _ _ c r IH W ltac:(stopper)) as [n1 R1].
    exists (S n1). intros n [|m] Hn Hm; [lia|]. cbn [args_loop].
    destruct (starts _ _ _ _ _ D) as (t & r1 & -> & _).
    replace (length ((t :: r1) ++ c :: r) =? length (c :: r))%nat with false.
    2: { symmetry. apply Nat.eqb_neq. rewrite app_length. cbn [length]. lia. }
    rewrite R1 by lia. cbn [elab_args]. destruct (elab x) as [p| | |]; cbn [done rbind]; try reflexivity.
    rewrite Nat.ltb_irrefl, Nat.eqb_refl. reflexivity.
  - (* more arguments *)
    intros e ts x j t ts' l D IH Hj Ht D' IH' Hts' W c r Hc Hc'.
    rewrite Hj in * by reflexivity. cbn [app] in *. made. rewrite <- app_assoc. cbn [app].
    destruct (reads_whole _ _ _ t (ts' ++ c :: r) IH ltac:(assumption) ltac:(stopper)) as [n1 R1].
    destruct (IH' ltac:(assumption) c r Hc Hc') as [n2 R2].
    exists (S (max n1 n2)). intros n [|m] Hn Hm; [lia|]. cbn [args_loop].
    replace (length (ts ++ t :: ts' ++ c :: r) =? length (c :: r))%nat with false.
    2: { symmetry. apply Nat.eqb_neq. rewrite app_length. cbn [length]. rewrite app_length. cbn [length]. lia. }
    rewrite R1 by lia. cbn [elab_args]. destruct (elab x) as [p| | |]; cbn [done rbind]; try reflexivity.
    replace (length (t :: ts' ++ c :: r) <? length (c :: r))%nat with false.
    2: { symmetry. apply Nat.ltb_ge. cbn [length]. rewrite app_length. cbn [length]. lia. }
    replace (length (t :: ts' ++ c :: r) =? length (c :: r))%nat with false.
    2: { symmetry. apply Nat.eqb_neq. cbn [length]. rewrite app_length. cbn [length]. lia. }
    cbn [find_next]. teq. cbn [rbind].
    replace (length (t :: ts' ++ c :: r) <? length (c :: r))%nat with false.
    2: { symmetry. apply Nat.ltb_ge. cbn [length]. rewrite app_length. cbn [length]. lia. }
    rewrite R2 by lia. reflexivity.
Qed.
End Complete.
