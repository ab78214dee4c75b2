From Verif Require Import Base Text_Model Tok_Model Tok_Spec Tok_Proofs Tok_Proofs2 Tok_Proofs3 Tok_Proofs4 Tok_Proofs5 Tok_Props Parse_Model Proto_Model Proto_Spec.

Definition special (c : ascii) : Prop := c = chr 60 \/ c = chr 62 \/ c = chr 44.
Definition stops (r : str) : Prop := match r with [] => True | c :: _ => c = chr 62 \/ c = chr 44 end.
Definition starts_special (r : str) : Prop := match r with [] => True | c :: _ => special c end.

Lemma stops_special r : stops r -> starts_special r.
Proof. destruct r as [|c r]; [done|]. intros [->| ->]; unfold starts_special, special; auto. Qed.

Lemma name_prefix n1 n2 x1 x2 : (forall c, c ∈ n1 -> ~ special c) -> (forall c, c ∈ n2 -> ~ special c) ->
  starts_special x1 -> starts_special x2 -> n1 ++ x1 = n2 ++ x2 -> n1 = n2 /\ x1 = x2.
Proof.
  revert n2. induction n1 as [|c n1 IH]; intros [|d n2] H1 H2 S1 S2 E; cbn [app] in E.
  - done.
  - subst x1. exfalso. apply (H2 d); [left|done].
  - subst x2. exfalso. apply (H1 c); [left|done].
  - injection E as -> E. destruct (IH n2) as [-> ->]; try done; intros; [apply H1|apply H2]; by right.
Qed.

Lemma plain_special n : plain n -> forall c, c ∈ n -> ~ special c.
Proof. intros [_ H] c Hc [->|[->| ->]]; destruct (H _ Hc) as (?&?&?); done. Qed.

Lemma commas_cons x y l : commas (x :: y :: l) = x ++ chr 44 :: commas (y :: l).
Proof. done. Qed.
Lemma written_cons n x l : written n (x :: l) = n ++ chr 60 :: commas (x :: l) ++ [chr 62].
Proof. done. Qed.

Definition unique_prefix (x : ty) : Prop := forall t2 r1 r2, well_formed x -> well_formed t2 -> stops r1 -> stops r2 ->
  ty_text x ++ r1 = ty_text t2 ++ r2 -> x = t2 /\ r1 = r2.
Lemma ty_prefix : forall t1 t2 r1 r2, well_formed t1 -> well_formed t2 -> stops r1 -> stops r2 ->
  ty_text t1 ++ r1 = ty_text t2 ++ r2 -> t1 = t2 /\ r1 = r2.
Proof.
  fix IH 1. intros [n1 a1] [n2 a2] r1 r2 W1 W2 S1 S2 E.
  assert (forall b1 b2 q1 q2, (forall a, a ∈ b1 -> well_formed a) -> (forall a, a ∈ b2 -> well_formed a) ->
     commas (map ty_text b1) ++ chr 62 :: q1 = commas (map ty_text b2) ++ chr 62 :: q2 -> b1 <> [] -> b2 <> [] ->
     (forall x, x ∈ b1 -> unique_prefix x) ->
     b1 = b2 /\ q1 = q2) as HL.
  { induction b1 as [|x b1 IHb]; intros [|y b2] q1 q2 F1 F2 E' N1 N2 HI; try done.
    assert (exists u1, commas (map ty_text (x :: b1)) ++ chr 62 :: q1 = ty_text x ++ u1 /\ stops u1 /\
      ((b1 = [] /\ u1 = chr 62 :: q1) \/ (b1 <> [] /\ u1 = chr 44 :: commas (map ty_text b1) ++ chr 62 :: q1))) as (u1 & E1 & T1 & C1).
    { destruct b1 as [|x' b1]; [exists (chr 62 :: q1); split; [done|]; split; [by left|by left]|].
      exists (chr 44 :: commas (map ty_text (x' :: b1)) ++ chr 62 :: q1). cbn [map]. rewrite commas_cons, <- app_assoc. split; [done|]. split; [by right|by right]. }
    assert (exists u2, commas (map ty_text (y :: b2)) ++ chr 62 :: q2 = ty_text y ++ u2 /\ stops u2 /\
      ((b2 = [] /\ u2 = chr 62 :: q2) \/ (b2 <> [] /\ u2 = chr 44 :: commas (map ty_text b2) ++ chr 62 :: q2))) as (u2 & E2 & T2 & C2).
    { destruct b2 as [|y' b2]; [exists (chr 62 :: q2); split; [done|]; split; [by left|by left]|].
      exists (chr 44 :: commas (map ty_text (y' :: b2)) ++ chr 62 :: q2). cbn [map]. rewrite commas_cons, <- app_assoc. split; [done|]. split; [by right|by right]. }
    rewrite E1, E2 in E'.
    destruct (HI x ltac:(left) y u1 u2) as [-> ->]; try done; [apply F1; left|apply F2; left|].
    destruct C1 as [[-> U1]|[NE1 U1]], C2 as [[-> U2]|[NE2 U2]]; rewrite U1 in U2; try done.
    - by injection U2 as ->.
    - injection U2 as U2. destruct (IHb b2 q1 q2) as [-> ->]; try done.
      + intros a Ha. apply F1. by right.
      + intros a Ha. apply F2. by right.
      + intros a Ha. apply HI. by right. }
  inversion W1 as [? ? P1 F1]; inversion W2 as [? ? P2 F2]; subst.
  cbn [ty_text] in E.
  assert (forall n a r, exists u, written n (map ty_text a) ++ r = n ++ u /\
    ((a = [] /\ u = r) \/ (a <> [] /\ u = chr 60 :: commas (map ty_text a) ++ chr 62 :: r))) as HW.
  { intros n [|x a] r; [exists r; split; [done|by left]|]. eexists. cbn [map]. rewrite written_cons, <- app_assoc. split; [done|]. right. split; [done|].
    cbn [app]. f_equal. by rewrite <- app_assoc. }
  destruct (HW n1 a1 r1) as (u1 & E1 & C1), (HW n2 a2 r2) as (u2 & E2 & C2). rewrite E1, E2 in E.
  apply name_prefix in E as [-> E]; [|by apply plain_special..| |].
  - subst u2. destruct C1 as [[-> ->]|[N1 ->]], C2 as [[-> U]|[N2 U]].
    + done.
    + exfalso. subst r1. destruct S1; done.
    + exfalso. subst r2. destruct S2; done.
    + injection U as U. destruct (HL a1 a2 r1 r2) as [-> ->]; try done.
      apply (Forall_forall unique_prefix). clear -IH. induction a1 as [|y a1 IHa]; constructor; [exact (IH y)|exact IHa].
  - destruct C1 as [[-> ->]|[N1 ->]]; [by apply stops_special|by left].
  - destruct C2 as [[-> ->]|[N2 ->]]; [by apply stops_special|by left].
Qed.

(** ** Names *)
Lemma separated_commas f l : separated f l = commas (map f l).
Proof.
  induction l as [|c l IH]; [done|]. cbn [separated map]. rewrite IH. destruct l as [|d l]; [cbn; by rewrite app_nil_r|]. done.
Qed.
Lemma run_name_written n l : run_name n l = written n (map (fun c => if str_eqb (c_run c) [] then object_name else c_run c) l).
Proof. destruct l as [|c l]; [done|]. unfold run_name. by rewrite separated_commas. Qed.
Lemma design_name_written n l : design_name n l = written n (map c_design l).
Proof. destruct l as [|c l]; [done|]. unfold design_name. by rewrite separated_commas. Qed.
Lemma ty_text_nonempty t : well_formed t -> ty_text t <> [].
Proof. intros W. inversion W as [n a [Hn _] _ Et]. cbn [ty_text]. destruct a; cbn [map written]; by destruct n. Qed.
Lemma run_eff l args : Forall2 (fun c t => well_formed t /\ c_run c = ty_text t) l args ->
  map (fun c => if str_eqb (c_run c) [] then object_name else c_run c) l = map c_run l /\ map c_run l = map ty_text args /\ (forall a, a ∈ args -> well_formed a).
Proof.
  induction 1 as [|c t l args [W E] _ (IH1 & IH2 & IH3)]; [split; [done|split; [done|intros a Ha; by apply elem_of_nil in Ha]]|].
  cbn [map]. rewrite IH1, IH2, E. unfold str_eqb. rewrite bool_decide_eq_false_2 by (by apply ty_text_nonempty).
  split; [done|]. split; [done|]. intros a [->|Ha]%elem_of_cons; auto.
Qed.
Lemma names_injective n1 n2 l1 l2 args1 args2 : plain n1 -> plain n2 ->
  Forall2 (fun c t => well_formed t /\ c_run c = ty_text t) l1 args1 ->
  Forall2 (fun c t => well_formed t /\ c_run c = ty_text t) l2 args2 ->
  run_name n1 l1 = run_name n2 l2 -> n1 = n2 /\ map c_run l1 = map c_run l2.
Proof.
  intros P1 P2 F1 F2 E. apply run_eff in F1 as (A1 & B1 & C1), F2 as (A2 & B2 & C2).
  rewrite !run_name_written, A1, A2, B1, B2 in E. rewrite B1, B2.
  destruct (ty_prefix (Ty n1 args1) (Ty n2 args2) [] []) as [Et _]; [by constructor..|done|done| |].
  - cbn [ty_text]. by rewrite E.
  - by injection Et as -> ->.
Qed.

(** ** Substitution *)
Lemma lookup_stands l x : stands_for l x (lookup_type l x).
Proof.
  induction l as [|c l IH]; cbn [lookup_type]; [apply st_other; intros d Hd; by apply elem_of_nil in Hd|].
  unfold str_eqb. case_bool_decide as E.
  - eapply (st_first _ _ [] c l); [done|done|]. intros d Hd. by apply elem_of_nil in Hd.
  - revert IH. generalize (lookup_type l x). intros y IH. destruct IH as [l1 d l2 El Ed Hn|Hn].
    + eapply (st_first _ _ (c :: l1) d l2); [by rewrite El|done|]. intros z [->|Hz]%elem_of_cons; auto.
    + apply st_other. intros z [->|Hz]%elem_of_cons; auto.
Qed.
Lemma stands_fun l x y z : stands_for l x y -> stands_for l x z -> y = z.
Proof.
  intros H1 H2. destruct H1 as [l1 c l2 El Ec Hn|Hn], H2 as [m1 d m2 Em Ed Hm|Hm].
  - rewrite El in Em. clear El l. revert m1 Em Hm. induction l1 as [|e l1 IH]; intros [|f m1] Em Hm; injection Em as E1 Em.
    + by subst.
    + exfalso. apply (Hm f); [left|by rewrite <- E1].
    + exfalso. apply (Hn e); [left|by rewrite E1].
    + apply (IH ltac:(intros; apply Hn; by right) m1 Em). intros. apply Hm. by right.
  - exfalso. apply (Hm c); [subst l; apply elem_of_app; right; left|done].
  - exfalso. apply (Hn d); [subst l; apply elem_of_app; right; left|done].
  - done.
Qed.
Lemma extract_fold l other : forall acc, acc <> [] -> (forall c, c ∈ other -> lookup_type l (c_design c) <> []) ->
  fold_left (fun r c => (match r with [] => r | _ => r ++ $"," end) ++ lookup_type l (c_design c)) other acc
  = commas (acc :: map (fun c => lookup_type l (c_design c)) other).
Proof.
  induction other as [|c other IH]; intros acc Ha H; [done|]. cbn [fold_left map].
  rewrite IH; [|destruct acc; by cbn|intros; apply H; by right]. rewrite commas_cons.
  destruct acc as [|a acc]; [done|]. destruct other as [|d other]; cbn [map commas]; by rewrite <- !app_assoc.
Qed.
Lemma extract_written l other : other <> [] -> (forall c, c ∈ other -> lookup_type l (c_design c) <> []) ->
  extract_types l other = $"<" ++ commas (map (fun c => lookup_type l (c_design c)) other) ++ $">".
Proof.
  intros Hn H. destruct other as [|c other]; [done|]. unfold extract_types. cbn [fold_left map app]. f_equal. f_equal.
  rewrite extract_fold; [done|apply H; left|intros; apply H; by right].
Qed.
Lemma declared_written l n cs : (forall c, c ∈ cs -> lookup_type l (c_design c) <> []) ->
  lookup_type l n ++ match cs with [] => [] | _ => extract_types l cs end
  = written (lookup_type l n) (map (fun c => lookup_type l (c_design c)) cs).
Proof.
  intros H. destruct cs as [|c cs]; [cbn; by rewrite app_nil_r|]. by rewrite extract_written.
Qed.

(** ** Reading a written type *)
Lemma ident_token w ln cl : identifier w -> exists t, make_token w ln cl = Some t /\ k_type t = IDENTIFIER /\ k_text t = w.
Proof.
  intros [Hw Hs]. destruct (lexeme_token (Word w) ln cl Hw) as (t & Et & Hl & _). cbn [spelling] in Et. cbn [lexed] in Hl.
  destruct (spelled_fun _ _ _ _ _ Hl Hs) as [E1 E2]. eauto.
Qed.
Definition punct_type (c : ascii) : ttype := if bool_decide (c = chr 60) then COMPARE_LESS else if bool_decide (c = chr 62) then COMPARE_GREATER else COMMA.
Lemma special_step toks w prev ln cl c : special c -> identifier w \/ w = [] ->
  exists ts ln' cl', t_run (cst toks w prev ln cl) [c] = Ok (cst (reverse ts ++ toks) [] c ln' cl') /\
    map (fun t => (k_type t, k_text t)) ts = (match w with [] => [] | _ => [(IDENTIFIER, w)] end) ++ [(punct_type c, [c])].
Proof.
  intros Hc Hw. cbn [t_run]. rewrite code_delim; [|destruct Hc as [->|[->| ->]]; by vm_compute..|].
  2: { unfold opens. destruct Hc as [->|[->| ->]]; cbn; by rewrite ?andb_false_r. }
  cbn [rbind]. assert (exists t, make_token [c] ln cl = Some t /\ k_type t = punct_type c /\ k_text t = [c]) as (t & Et & T1 & T2).
  { destruct Hc as [->|[->| ->]]; eexists; (split; [reflexivity|done]). }
  rewrite Et. cbn [push_opt]. destruct w as [|x w].
  - exists [t], ln, (cl + 1)%N. cbn [flush]. split; [done|]. cbn. by rewrite T1, T2.
  - destruct Hw as [Hw|]; [|done]. destruct (ident_token _ ln cl Hw) as (u & Eu & U1 & U2).
    exists [u; t], ln, (cl + 1)%N. cbn [flush]. rewrite Eu. split; [done|]. cbn. by rewrite T1, T2, U1, U2.
Qed.

Definition kind (t : token) : ttype * str := (k_type t, k_text t).
Definition piece_text (p : str * ascii) : str := fst p ++ [snd p].
Definition piece_kinds (p : str * ascii) : list (ttype * str) := [(IDENTIFIER, fst p); (punct_type (snd p), [snd p])].
Lemma pieces_run ps : Forall (fun p => identifier (fst p) /\ special (snd p)) ps -> forall toks prev ln cl,
  exists ts prev' ln' cl', t_run (cst toks [] prev ln cl) (concat (map piece_text ps)) = Ok (cst (reverse ts ++ toks) [] prev' ln' cl') /\
    map kind ts = concat (map piece_kinds ps).
Proof.
  induction 1 as [|[w c] ps [Hw Hc] _ IH]; intros toks prev ln cl; [by exists [], prev, ln, cl|].
  cbn [map concat piece_text fst snd] in *. unfold piece_text at 1. cbn [fst snd]. rewrite <- app_assoc, t_run_app.
  pose proof Hw as [Hw' _]. apply is_word_spec in Hw' as [Hne Hf].
  destruct (word_run w Hf toks [] prev ln cl) as (p & k & ->). cbn [rbind]. change ([] ++ w) with w. rewrite t_run_app.
  destruct (special_step toks w p ln k c Hc ltac:(by left)) as (ts1 & ln1 & cl1 & -> & K1). cbn [rbind].
  destruct (IH (reverse ts1 ++ toks) c ln1 cl1) as (ts2 & p2 & ln2 & cl2 & -> & K2).
  exists (ts1 ++ ts2), p2, ln2, cl2. rewrite reverse_app, <- app_assoc. split; [done|].
  rewrite map_app, K2. change (map kind ts1) with (map (fun t => (k_type t, k_text t)) ts1). rewrite K1. destruct w; [done|]. done.
Qed.
(** The pieces of the text of a type with arguments. *)
Fixpoint arg_pieces (x : str) (l : list str) : list (str * ascii) :=
  match l with [] => [(x, chr 62)] | y :: l' => (x, chr 44) :: arg_pieces y l' end.
Lemma written_pieces n x l : written n (x :: l) = concat (map piece_text ((n, chr 60) :: arg_pieces x l)).
Proof.
  rewrite written_cons. cbn [map concat]. unfold piece_text at 1. cbn [fst snd]. rewrite <- app_assoc. f_equal. cbn [app]. f_equal.
  revert x. induction l as [|y l IH]; intros x; cbn [arg_pieces map concat]; [cbn; by rewrite app_nil_r|].
  rewrite commas_cons, <- IH. unfold piece_text. cbn [fst snd]. by rewrite <- !app_assoc.
Qed.
Lemma arg_pieces_ok x l : identifier x -> Forall identifier l -> Forall (fun p => identifier (fst p) /\ special (snd p)) (arg_pieces x l).
Proof.
  intros Hx Hl. revert x Hx. induction Hl as [|y l Hy _ IH]; intros x Hx; cbn [arg_pieces]; constructor; try constructor; try done.
  - right. by left.
  - right. by right.
  - by apply IH.
Qed.
Definition joins_no (a b : ttype) : Prop := merge_assign a b = None /\ merge_operator a b = None.
Definition quiet_kind (k : ttype * str) : Prop := fst k <> CONST_INTEGER /\ fst k <> RESERVED_WORD.
Fixpoint calm (l : list (ttype * str)) : Prop :=
  match l with
  | a :: ((b :: _) as l') => joins_no (fst a) (fst b) /\ calm l'
  | _ => True
  end.
Lemma calm_raw l : calm (map kind l) -> Forall quiet_kind (map kind l) ->
  (forall x a b y, l = x ++ a :: b :: y -> merge_assign (k_type a) (k_type b) = None /\ merge_operator (k_type a) (k_type b) = None) /\
  (forall t, t ∈ l -> k_type t <> CONST_INTEGER /\ ~ (k_type t = RESERVED_WORD /\ k_text t = $"operator")).
Proof.
  intros Hc Hq. split.
  - intros x a b y ->. revert Hc. clear. induction x as [|z x IH]; intros Hc; cbn [app map calm] in *; [apply Hc|].
    apply IH. destruct x; cbn [app map] in *; apply Hc.
  - intros t Ht. rewrite Forall_forall in Hq. destruct (Hq (kind t)) as [H1 H2]; [by apply elem_of_list_fmap_1|]. split; [done|]. intros [? _]. done.
Qed.
Lemma tokens_of_pieces ps w : Forall (fun p => identifier (fst p) /\ special (snd p)) ps -> blanks w ->
  exists ts, tokenize (concat (map piece_text ps) ++ w) = Ok (ts ++ [eof_token]) /\ map kind ts = concat (map piece_kinds ps).
Proof.
  intros Hps Hw. destruct (pieces_run ps Hps [] (chr 0) 1%N 1%N) as (ts & p & ln & cl & E & K). exists ts. split; [|done].
  apply C14_plain_tokens.
  - unfold raw_tokens. rewrite <- app_assoc, t_run_app. change t_init with (cst [] [] (chr 0) 1%N 1%N). rewrite E. cbn [rbind].
    apply blanks_white in Hw as [Hw1 Hw2]. rewrite t_run_app.
    edestruct (white_run w Hw2 Hw1 (reverse ts ++ []) [] p ln cl) as (p2 & l2 & c2 & -> & _). cbn [rbind t_run].
    rewrite code_nul. cbn [rbind t_toks flush]. by rewrite app_nil_r, reverse_involutive.
  - apply calm_raw.
    + rewrite map_app, K. clear. induction ps as [|[w c] ps IH]; [done|]. cbn [map concat piece_kinds app fst snd]. 
      cbn [calm]. destruct ps as [|[v d] ps]; cbn [map concat piece_kinds app fst snd calm] in *.
      * unfold punct_type. repeat case_bool_decide; done.
      * split; [unfold punct_type; repeat case_bool_decide; done|]. split; [unfold punct_type; repeat case_bool_decide; done|]. apply IH.
    + rewrite map_app, K. apply Forall_app. split; [|by repeat constructor]. clear. induction ps as [|[w c] ps IH]; [constructor|].
      cbn [map concat piece_kinds app fst snd]. constructor; [done|]. constructor; [|done]. unfold quiet_kind, punct_type. cbn [fst]. repeat case_bool_decide; done.
  - apply calm_raw.
    + rewrite map_app, K. clear. induction ps as [|[w c] ps IH]; [done|]. cbn [map concat piece_kinds app fst snd]. 
      cbn [calm]. destruct ps as [|[v d] ps]; cbn [map concat piece_kinds app fst snd calm] in *.
      * unfold punct_type. repeat case_bool_decide; done.
      * split; [unfold punct_type; repeat case_bool_decide; done|]. split; [unfold punct_type; repeat case_bool_decide; done|]. apply IH.
    + rewrite map_app, K. apply Forall_app. split; [|by repeat constructor]. clear. induction ps as [|[w c] ps IH]; [constructor|].
      cbn [map concat piece_kinds app fst snd]. constructor; [done|]. constructor; [|done]. unfold quiet_kind, punct_type. cbn [fst]. repeat case_bool_decide; done.
Qed.

Fixpoint numbered (f : str -> str) (i : N) (l : list str) : list constraint :=
  match l with [] => [] | x :: l' => Con i (f x) x [] :: numbered f (i + 1) l' end.
Lemma kind_inv ts ty x ks : map kind ts = (ty, x) :: ks -> exists t ts', ts = t :: ts' /\ k_type t = ty /\ k_text t = x /\ map kind ts' = ks.
Proof. destruct ts as [|t ts]; [done|]. cbn [map]. unfold kind at 1. intros E. injection E as <- <- <-. eauto 6. Qed.
Lemma run_loop_args l : forall x i ts rest, map kind ts = concat (map piece_kinds (arg_pieces x l)) ->
  run_loop i (ts ++ rest) = Ok (numbered (fun _ => []) i (x :: l), rest).
Proof.
  induction l as [|y l IH]; intros x i ts rest K; cbn [arg_pieces map concat piece_kinds app fst snd] in K.
  - apply kind_inv in K as (t & ts' & -> & T1 & T2 & K). apply kind_inv in K as (u & ts'' & -> & U1 & U2 & K).
    destruct ts''; [|done]. cbn [app run_loop]. rewrite T1, U1. change (ttype_eqb IDENTIFIER COMPARE_GREATER) with false.
    change (punct_type (chr 62)) with COMPARE_GREATER. 
    change (ttype_eqb COMPARE_GREATER COLON) with false. change (ttype_eqb COMPARE_GREATER COMMA) with false.
    change (ttype_eqb COMPARE_GREATER COMPARE_GREATER) with true. cbn [rbind fst snd]. by rewrite T2.
  - apply kind_inv in K as (t & ts' & -> & T1 & T2 & K). apply kind_inv in K as (u & ts'' & -> & U1 & U2 & K).
    cbn [app]. change (punct_type (chr 44)) with COMMA in U1.
    cbn [run_loop]. rewrite T1, U1. change (ttype_eqb IDENTIFIER COMPARE_GREATER) with false.
    change (ttype_eqb COMMA COLON) with false. change (ttype_eqb COMMA COMMA) with true.
    rewrite (IH y (i + 1)%N ts'' rest K). cbn [rbind fst snd numbered]. by rewrite T2.
Qed.
Lemma design_loop_args l : forall x i ts rest, map kind ts = concat (map piece_kinds (arg_pieces x l)) ->
  design_loop i (ts ++ rest) = Ok (numbered (fun x => x) i (x :: l), rest).
Proof.
  induction l as [|y l IH]; intros x i ts rest K; cbn [arg_pieces map concat piece_kinds app fst snd] in K.
  - apply kind_inv in K as (t & ts' & -> & T1 & T2 & K). apply kind_inv in K as (u & ts'' & -> & U1 & U2 & K).
    destruct ts''; [|done]. cbn [app design_loop]. rewrite T1, U1. change (ttype_eqb IDENTIFIER COMPARE_GREATER) with false.
    change (punct_type (chr 62)) with COMPARE_GREATER. 
    change (ttype_eqb COMPARE_GREATER COLON) with false. change (ttype_eqb COMPARE_GREATER COMMA) with false.
    change (ttype_eqb COMPARE_GREATER COMPARE_GREATER) with true. cbn [rbind fst snd]. by rewrite T2.
  - apply kind_inv in K as (t & ts' & -> & T1 & T2 & K). apply kind_inv in K as (u & ts'' & -> & U1 & U2 & K).
    cbn [app]. change (punct_type (chr 44)) with COMMA in U1.
    cbn [design_loop]. rewrite T1, U1. change (ttype_eqb IDENTIFIER COMPARE_GREATER) with false.
    change (ttype_eqb COMMA COLON) with false. change (ttype_eqb COMMA COMMA) with true.
    rewrite (IH y (i + 1)%N ts'' rest K). cbn [rbind fst snd numbered]. by rewrite T2.
Qed.
Lemma read_written named n x l w : identifier n -> identifier x -> Forall identifier l -> blanks w ->
  exists ts, tokenize (written n (x :: l) ++ w) = Ok ts /\
    parse_type named ts = Ok (TDecl n [] (numbered (if named then fun _ => [] else fun x => x) 0 (x :: l)), [eof_token]).
Proof.
  intros Hn Hx Hl Hw. rewrite written_pieces.
  destruct (tokens_of_pieces ((n, chr 60) :: arg_pieces x l) w) as (ts & E & K); [|done|].
  { constructor; [|by apply arg_pieces_ok]. split; [done|by left]. }
  exists (ts ++ [eof_token]). split; [done|]. cbn [map concat piece_kinds app fst snd] in K.
  apply kind_inv in K as (t & ts' & -> & T1 & T2 & K). apply kind_inv in K as (u & ts'' & -> & U1 & U2 & K).
  change (punct_type (chr 60)) with COMPARE_LESS in U1.
  unfold parse_type, identify. cbn [app]. unfold identify_loop. rewrite T1, T2, U1.
  change (ttype_eqb IDENTIFIER IDENTIFIER) with true. change (ttype_eqb COMPARE_LESS OPERATOR_SCOPE) with false. cbn [rbind fst snd].
  unfold collect_run, collect_design. rewrite U1. change (ttype_eqb COMPARE_LESS COMPARE_LESS) with true.
  destruct named.
  - by rewrite (run_loop_args l x 0%N ts'' [eof_token] K).
  - by rewrite (design_loop_args l x 0%N ts'' [eof_token] K).
Qed.
