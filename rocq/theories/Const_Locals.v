(** Const variables and parameters keep what they hold. *)
From Verif Require Import Base Base_Proofs Const_Model Const_Spec Const_Proofs.
Open Scope Z_scope.

(** What the generator takes for a variable that can be modified is one at run time. *)
Definition sub (G Gr : scopes) : Prop :=
  forall x q, lookup_all x G = Some q -> e_const q = false -> exists q', lookup_all x Gr = Some q' /\ e_const q' = false.
Lemma sub_refl G : sub G G.
Proof. intros x q H ?. by exists q. Qed.

Definition K_expr (n : nat) : Prop :=
  forall P k m G Gr h E e e' i h' E' d,
    gen_expr P k m G e = Some (e', i) -> in_step Gr E -> sub G Gr -> eval n P h E e' = Ok (h', E', d) -> keep Gr E E'.
Definition K_args (n : nat) : Prop :=
  forall P k m G Gr h E l l' is h' E' ds,
    gen_args P k m G l = Some (l', is) -> in_step Gr E -> sub G Gr -> eval_args n P h E l' = Ok (h', E', ds) -> keep Gr E E'.

Lemma keep_write P k m G Gr h0 E0 h E p ps l d h' E' :
  resolve_path P k m G p = Some ps -> inc_ok m ps = true -> loc_of h0 E0 (path_of ps) = Some l ->
  in_step Gr E -> sub G Gr -> write_loc h E l d = (h', E') -> keep Gr E E'.
Proof.
  intros R A L I SB W. destruct (write_var _ _ _ _ _ _ W) as [(n & -> & -> & _)|(o & n & -> & ->)]; [|by apply keep_refl].
  apply loc_var in L. destruct (path_single _ _ _ _ _ _ _ R L) as (e & He & ->).
  unfold inc_ok, any_const, any_member in A. cbn [existsb t_const t_member orb] in A.
  rewrite orb_false_r, andb_false_r, andb_true_r in A. apply negb_true_iff in A.
  destruct (SB n e He A) as (q' & Hq & Hc). by eapply keep_set.
Qed.
Lemma assign_inc m ps : assign_ok m ps = true -> inc_ok m ps = true.
Proof. unfold assign_ok, inc_ok. intros H. by apply andb_true_iff in H as [_ H]. Qed.

Lemma K_both n : K_expr n /\ K_args n.
Proof.
  induction n as [|n [IHe IHa]].
  { split; intros ???????????????; discriminate. }
  split.
  - intros P k m G Gr h E e e' i h' E' d HG I SB HE.
    destruct e as [z|p|a b|p a|p dl|p l|t l].
    + cbn [gen_expr] in HG. injection HG as <- <-. cbn [eval] in HE. injection HE as <- <- <-. by apply keep_refl.
    + cbn [gen_expr] in HG. destruct (resolve_path P k m G p) as [ps|]; [|discriminate].
      destruct (last ps) as [q|]; [|discriminate]. destruct (t_meth q); [discriminate|]. injection HG as <- <-.
      cbn [eval] in HE. destruct (loc_of h E (path_of ps)) as [l|]; [|discriminate].
      destruct (read_loc h E l); [|discriminate]. injection HE as <- <- <-. by apply keep_refl.
    + cbn [gen_expr] in HG. destruct (gen_expr P k m G a) as [[a' ia]|] eqn:Ga; [|discriminate].
      destruct (gen_expr P k m G b) as [[b' ib]|] eqn:Gb; [|discriminate].
      destruct (_ && _); [|discriminate]. injection HG as <- <-.
      cbn [eval] in HE. apply rbind_ok in HE as ([[h1 E1] d1] & H1 & HE). cbn [fst snd] in HE.
      apply rbind_ok in HE as ([[h2 E2] d2] & H2 & HE). cbn [fst snd] in HE. injection HE as <- <- <-.
      pose proof (IHe _ _ _ _ _ _ _ _ _ _ _ _ _ Ga I SB H1) as K1.
      eapply keep_trans; [exact K1|]. eapply IHe; [exact Gb| |exact SB|exact H2]. by apply keep_dom in K1 as [_ ?].
    + cbn [gen_expr] in HG. destruct (resolve_path P k m G p) as [ps|] eqn:R; [|discriminate].
      destruct (gen_expr P k m G a) as [[a' ia]|] eqn:Ga; [|discriminate].
      destruct (last ps) as [q|]; [|discriminate]. destruct (t_meth q); [discriminate|]. destruct (t_ty q); [|discriminate].
      destruct (assign_ok m ps && _) eqn:A; [|discriminate]. injection HG as <- <-. apply andb_true_iff in A as [A _].
      cbn [eval] in HE. destruct (loc_of h E (path_of ps)) as [l|] eqn:L; [|discriminate].
      apply rbind_ok in HE as ([[h1 E1] d1] & H1 & HE). cbn [fst snd] in HE.
      destruct (read_loc h1 E1 l) as [d0|]; [|discriminate].
      destruct (assign h1 d0 d1) as [h2 d2]. destruct (write_loc h2 E1 l d2) as [h3 E3] eqn:W. injection HE as <- <- <-.
      pose proof (IHe _ _ _ _ _ _ _ _ _ _ _ _ _ Ga I SB H1) as K1.
      eapply keep_trans; [exact K1|]. eapply keep_write; [exact R|by apply assign_inc|exact L| |exact SB|exact W].
      by apply keep_dom in K1 as [_ ?].
    + cbn [gen_expr] in HG. destruct (resolve_path P k m G p) as [ps|] eqn:R; [|discriminate].
      destruct (last ps) as [q|]; [|discriminate]. destruct (t_meth q); [discriminate|].
      destruct (inc_ok m ps && _) eqn:A; [|discriminate]. injection HG as <- <-. apply andb_true_iff in A as [A _].
      cbn [eval] in HE. destruct (loc_of h E (path_of ps)) as [l|] eqn:L; [|discriminate].
      destruct (read_loc h E l) as [d0|]; [|discriminate].
      destruct (assign h d0 _) as [h2 d2]. destruct (write_loc h2 E l d2) as [h3 E3] eqn:W. injection HE as <- <- <-.
      eapply keep_write; [exact R|exact A|exact L|exact I|exact SB|exact W].
    + rewrite gen_call_eq in HG. destruct (resolve_path P k m G p) as [ps|] eqn:R; [|discriminate].
      destruct (gen_args P k m G l) as [[l' is]|] eqn:Gl; [|discriminate].
      destruct (last ps) as [q|]; [|discriminate]. destruct (t_meth q) as [[ow f]|]; [|discriminate].
      destruct (_ && _); [|discriminate]. injection HG as <- <-.
      cbn [eval] in HE. apply rbind_ok in HE as ([[h1 E1] ds] & H1 & HE). cbn [fst snd] in HE.
      pose proof (IHa _ _ _ _ _ _ _ _ _ _ _ _ _ Gl I SB H1) as K1.
      destruct (rev (path_of ps)) as [|fn rp]; [discriminate|].
      destruct (loc_of h1 E1 (rev rp)) as [lo|]; [|discriminate]. destruct (read_loc h1 E1 lo) as [d0|]; [|discriminate].
      destruct (h_ref d0); [|discriminate]. apply rbind_ok in HE as ([h2 d2] & _ & HE). injection HE as <- <- <-. exact K1.
    + rewrite gen_new_eq in HG. destruct (gen_args P k m G l) as [[l' is]|] eqn:Gl; [|discriminate].
      assert (e' = ENew t l') as ->.
      { destruct t as [|c]; [destruct (args_ok _ _); [by injection HG as <- <-|discriminate]|].
        destruct (find_class P c) as [k'|]; [|discriminate]. destruct (find_method k' str_constructor).
        - destruct (_ && _); [by injection HG as <- <-|discriminate].
        - destruct (args_ok _ _); [by injection HG as <- <-|discriminate]. }
      cbn [eval] in HE. apply rbind_ok in HE as ([[h1 E1] ds] & H1 & HE). cbn [fst snd] in HE.
      pose proof (IHa _ _ _ _ _ _ _ _ _ _ _ _ _ Gl I SB H1) as K1.
      destruct t as [|c].
      * destruct ds as [|d0 [|]]; try discriminate. injection HE as <- <- <-. exact K1.
      * destruct (find_class P c) as [k'|]; [|discriminate]. destruct (find_method k' str_constructor).
        -- apply rbind_ok in HE as ([h2 d2] & _ & HE). injection HE as <- <- <-. exact K1.
        -- injection HE as <- <- <-. exact K1.
  - intros P k m G Gr h E l l' is h' E' ds HG I SB HE. destruct l as [|a r]; cbn [gen_args] in HG.
    + injection HG as <- <-. cbn [eval_args] in HE. injection HE as <- <- <-. by apply keep_refl.
    + destruct (gen_expr P k m G a) as [[a' ia]|] eqn:Ga; [|discriminate].
      destruct (gen_args P k m G r) as [[r' ir]|] eqn:Gr'; [|discriminate]. injection HG as <- <-.
      cbn [eval_args] in HE. apply rbind_ok in HE as ([[h1 E1] d1] & H1 & HE). cbn [fst snd] in HE.
      apply rbind_ok in HE as ([[h2 E2] d2] & H2 & HE). cbn [fst snd] in HE. injection HE as <- <- <-.
      pose proof (IHe _ _ _ _ _ _ _ _ _ _ _ _ _ Ga I SB H1) as K1.
      eapply keep_trans; [exact K1|]. eapply IHa; [exact Gr'| |exact SB|exact H2]. by apply keep_dom in K1 as [_ ?].
Qed.

(** ** Statements *)
Definition ext (N : list str) (G : scopes) (E E' : env) : Prop :=
  exists s r a t na b t', G = s :: r /\ E = a :: t /\ E' = (na ++ b) :: t'
    /\ keep (s :: r) (a :: t) (b :: t') /\ Forall (fun q => fst q ∈ N) na.

Lemma ext_keep N G E E' : G <> [] -> keep G E E' -> ext N G E E'.
Proof.
  intros hG H. destruct G as [|s r]; [done|]. destruct E as [|a t]; [done|]. destruct E' as [|b t']; [done|].
  exists s, r, a, t, [], b, t'. repeat split; auto; apply H.
Qed.
Lemma keep_scope_app s1 s2 a1 a2 c :
  map fst s1 = map fst a1 -> keep_scope (s1 ++ s2) (a1 ++ a2) c ->
  exists c1 c2, c = c1 ++ c2 /\ keep_scope s1 a1 c1 /\ keep_scope s2 a2 c2.
Proof.
  revert a1 c; induction s1 as [|q s1 IH]; intros [|x a1] c H K; try discriminate.
  - exists [], c. repeat split; auto.
  - destruct c as [|y c]; [done|]. cbn [app keep_scope] in K. destruct K as (h1 & h2 & h3 & K). injection H as _ H.
    destruct (IH _ _ H K) as (c1 & c2 & -> & k1 & k2). exists (y :: c1), c2. cbn [keep_scope]. repeat split; auto.
Qed.
Lemma ext_trans N1 N2 G E E1 E2 ns s r :
  G = s :: r -> ext N1 G E E1 -> in_step ((ns ++ s) :: r) E1 -> ext N2 ((ns ++ s) :: r) E1 E2 -> ext (N1 ++ N2) G E E2.
Proof.
  intros -> (s0 & r0 & a & t & na & b & t1 & [= <- <-] & -> & -> & K1 & F1) I1
    (s1 & r1 & a1 & t1' & nb & c & t2 & [= <- <-] & [= <- <-] & -> & K2 & F2).
  apply Forall2_cons in I1 as [I1 _].
  assert (Kb : keep_scope s a b) by apply K1.
  destruct (keep_scope_dom _ _ _ Kb) as [_ Db].
  assert (Dn : map fst ns = map fst na).
  { rewrite !map_app, Db in I1. by apply app_inv_tail in I1. }
  destruct K2 as [K2 K2']. destruct (keep_scope_app _ _ _ _ _ Dn K2) as (c1 & c2 & -> & k1 & k2).
  exists s, r, a, t, (nb ++ c1), c2, t2. repeat split; auto.
  - by rewrite app_assoc.
  - by eapply keep_scope_trans.
  - eapply keep_trans; [apply K1|exact K2'].
  - apply Forall_app. split.
    + eapply Forall_impl; [exact F2|]. intros q. rewrite elem_of_app. auto.
    + assert (Dc : map fst c1 = map fst na).
      { destruct (keep_scope_dom _ _ _ k1) as [x y]. congruence. }
      apply Forall_forall. intros q hq. apply elem_of_app. left.
      assert (fst q ∈ map fst na) as hq'. { rewrite <- Dc. by apply elem_of_list_fmap_1. }
      apply elem_of_list_fmap in hq' as (q' & -> & hq'). exact (proj1 (Forall_forall _ _) F1 q' hq').
Qed.

Lemma declare_inv G n e G' : declare G n e = Some G' -> exists s r, G = s :: r /\ G' = ((n, e) :: s) :: r.
Proof.
  unfold declare. destruct G as [|s r]; [discriminate|]. destruct (assoc n _); [discriminate|]. intros [= <-]. eauto.
Qed.
Lemma gen_stmt_grows P k m G s s' G' : G <> [] -> gen_stmt P k m G s = Some (s', G') ->
  exists ns sc r, G = sc :: r /\ G' = (ns ++ sc) :: r.
Proof.
  intros hG. destruct G as [|sc r]; [done|]. intros H.
  assert (G' = sc :: r -> exists ns sc0 r0, sc :: r = sc0 :: r0 /\ G' = (ns ++ sc0) :: r0) as same.
  { intros ->. by exists [], sc, r. }
  assert (forall n e, declare (sc :: r) n e = Some G' -> exists ns sc0 r0, sc :: r = sc0 :: r0 /\ G' = (ns ++ sc0) :: r0) as decl.
  { intros n e (s0 & r0 & [= <- <-] & ->)%declare_inv. by exists [(n, e)], sc, r. }
  destruct s as [e|t n c [e|]|n c e|e a b|e b|[e|]].
  - cbn [gen_stmt] in H. destruct (gen_expr P k m (sc :: r) e) as [[e' i]|]; [|discriminate]. injection H as _ <-. by apply same.
  - cbn [gen_stmt] in H. destruct (ty_ok P t); [|discriminate]. destruct (declare (sc :: r) n _) as [G1|] eqn:D; [|discriminate].
    destruct (gen_expr P k m G1 e) as [[e' i]|]; [|discriminate]. destruct (bool_decide _); [|discriminate].
    injection H as _ <-. by eapply decl.
  - cbn [gen_stmt] in H. destruct (ty_ok P t); [|discriminate]. destruct (declare (sc :: r) n _) as [G1|] eqn:D; [|discriminate].
    injection H as _ <-. by eapply decl.
  - cbn [gen_stmt] in H. destruct (gen_expr P k m (sc :: r) e) as [[e' i]|]; [|discriminate]. destruct (i_ty i); [|discriminate].
    destruct (_ && _); [discriminate|]. destruct (declare (sc :: r) n _) as [G1|] eqn:D; [|discriminate].
    injection H as _ <-. by eapply decl.
  - rewrite gen_if_eq in H. destruct (gen_expr P k m (sc :: r) e) as [[e' i]|]; [|discriminate].
    destruct (gen_stmts P k m _ a) as [[a' ?]|]; [|discriminate]. destruct (gen_stmts P k m _ b) as [[b' ?]|]; [|discriminate].
    injection H as _ <-. by apply same.
  - rewrite gen_while_eq in H. destruct (gen_expr P k m (sc :: r) e) as [[e' i]|]; [|discriminate].
    destruct (gen_stmts P k m _ b) as [[b' ?]|]; [|discriminate]. injection H as _ <-. by apply same.
  - cbn [gen_stmt] in H. destruct (gen_expr P k m (sc :: r) e) as [[e' i]|]; [|discriminate]. destruct (_ && _); [|discriminate].
    injection H as _ <-. by apply same.
  - cbn [gen_stmt] in H. destruct (bool_decide _); [|discriminate]. injection H as _ <-. by apply same.
Qed.

Definition K_stmt (n : nat) : Prop :=
  forall P k m G h E s s' G' h' E' fl,
    gen_stmt P k m G s = Some (s', G') -> G <> [] -> in_step G E -> exec1 n P h E s' = Ok (h', E', fl) ->
    ext (declared [s]) G E E' /\ (fl = FNormal -> in_step G' E').
Definition K_stmts (n : nat) : Prop :=
  forall P k m G h E ss ss' G' h' E' fl,
    gen_stmts P k m G ss = Some (ss', G') -> G <> [] -> in_step G E -> exec n P h E ss' = Ok (h', E', fl) ->
    ext (declared ss) G E E' /\ (fl = FNormal -> in_step G' E').

(** A block leaves the scopes around it. *)
Lemma block_keep G E N E' : in_step G E -> ext N ([] :: G) ([] :: E) E' -> keep G E (tail E').
Proof.
  intros I (s & r & a & t & na & b & t' & [= <- <-] & [= <- <-] & -> & K & _). apply K.
Qed.

Lemma declaration_keep n P k m G0 G Gr h E sc r a t nm q h' E' e e' i hd :
  K_expr n -> gen_expr P k m G0 e = Some (e', i) ->
  G = sc :: r -> E = a :: t -> in_step G E -> Gr = ((nm, q) :: sc) :: r -> sub G0 (((nm, Ent (e_ty q) false false) :: sc) :: r) ->
  (let! x := eval n P h (((nm, hd) :: a) :: t) e' in
   match read_loc (fst (fst x)) (snd (fst x)) (LVar nm) with
   | None => UB
   | Some d =>
       let (h2, d') := assign (fst (fst x)) d (snd x) in
       let (h3, E3) := write_loc h2 (snd (fst x)) (LVar nm) d' in Ok (h3, E3, FNormal)
   end) = Ok (h', E', FNormal) ->
  ext [nm] G E E' /\ in_step Gr E'.
Proof.
  intros KE Ge -> -> I -> SB H. apply Forall2_cons in I as [I It].
  apply rbind_ok in H as ([[h1 E1] d1] & H1 & H). cbn [fst snd] in H.
  destruct (read_loc h1 E1 (LVar nm)) as [d0|]; [|discriminate]. destruct (assign h1 d0 d1) as [h2 d2].
  cbn [write_loc] in H. injection H as _ <-.
  assert (I1 : in_step (((nm, Ent (e_ty q) false false) :: sc) :: r) (((nm, hd) :: a) :: t)).
  { constructor; [cbn [map fst]; by rewrite I|exact It]. }
  pose proof (KE _ _ _ _ _ _ _ _ _ _ _ _ _ Ge I1 SB H1) as K1.
  destruct (keep_dom _ _ _ K1) as [_ I2].
  assert (K2 : keep (((nm, Ent (e_ty q) false false) :: sc) :: r) E1 (set_all nm d2 E1)).
  { eapply keep_set; [exact I2| |]; [cbn [lookup_all]; rewrite assoc_cons, same_refl; reflexivity|reflexivity]. }
  pose proof (keep_trans _ _ _ _ K1 K2) as K3. destruct (keep_dom _ _ _ K3) as [_ I3].
  destruct (set_all nm d2 E1) as [|b t']; [done|]. destruct b as [|x b]; [by destruct K3|].
  destruct K3 as [[hx [hy [_ K3]]] K4]. cbn [fst snd] in *. split.
  - exists sc, r, a, t, [x], b, t'. repeat split; auto. constructor; [|constructor]. rewrite hy. left.
  - apply Forall2_cons in I3 as [I3 I4]. constructor; [|exact I4]. cbn [map fst] in *. exact I3.
Qed.

Lemma K_stmts_all n : K_stmt n /\ K_stmts n.
Proof.
  induction n as [|n [IH1 IHs]].
  { split; intros ??????????????; discriminate. }
  destruct (K_both n) as [KE _]. split.
  - intros P k m G h E s s' G' h' E' fl HG hG I HE.
    assert (done0 : forall N, keep G E E' -> G' = G -> ext N G E E' /\ (fl = FNormal -> in_step G' E')).
    { intros N K ->. split; [by apply ext_keep|]. intros _. by apply keep_dom in K as [_ ?]. }
    destruct s as [e|t nm c [e|]|nm c e|e a b|e b|[e|]].
    + cbn [gen_stmt] in HG. destruct (gen_expr P k m G e) as [[e' i]|] eqn:Ge; [|discriminate]. injection HG as <- <-.
      cbn [exec1] in HE. apply rbind_ok in HE as ([[h1 E1] d1] & H1 & HE). injection HE as <- <- <-.
      apply done0; [|reflexivity]. eapply KE; [exact Ge|exact I|apply sub_refl|exact H1].
    + cbn [gen_stmt] in HG. destruct (ty_ok P t); [|discriminate].
      destruct (declare G nm _) as [G1|] eqn:D; [|discriminate].
      destruct (gen_expr P k m G1 e) as [[e' i]|] eqn:Ge; [|discriminate]. destruct (bool_decide _); [|discriminate].
      injection HG as <- <-. apply declare_inv in D as (sc & r & -> & ->).
      destruct E as [|a t0]; [by apply Forall2_cons_nil_inv in I|]. cbn [exec1] in HE.
      destruct (assoc nm a); [discriminate|].
      assert (fl = FNormal) as ->.
      { revert HE. clear. intros H. apply rbind_ok in H as (x & _ & H). destruct (read_loc _ _ _); [|discriminate].
        destruct (assign _ _ _). destruct (write_loc _ _ _ _). congruence. }
      cbn [declared flat_map app].
      destruct (declaration_keep n P k m (((nm, Ent t c false) :: sc) :: r) (sc :: r) (((nm, Ent t c false) :: sc) :: r) h (a :: t0)
                  sc r a t0 nm (Ent t c false) h' E' e e' i (fresh t) KE Ge eq_refl eq_refl I eq_refl) as [X Y]; [| exact HE|].
      * intros x q Hx Hc. cbn [lookup_all] in *. rewrite assoc_cons in *. destruct (same nm x).
        -- by eexists.
        -- by exists q.
      * split; [exact X|]. intros _. exact Y.
    + cbn [gen_stmt] in HG. destruct (ty_ok P t); [|discriminate].
      destruct (declare G nm _) as [G1|] eqn:D; [|discriminate]. injection HG as <- <-.
      apply declare_inv in D as (sc & r & -> & ->).
      destruct E as [|a t0]; [by apply Forall2_cons_nil_inv in I|]. cbn [exec1] in HE.
      destruct (assoc nm a); [discriminate|]. injection HE as <- <- <-. split.
      * exists sc, r, a, t0, [(nm, fresh t)], a, t0. repeat split; auto; try (apply keep_refl, I).
        -- apply Forall2_cons in I as [I _]. by apply keep_scope_refl.
        -- apply Forall2_cons in I as [_ I]. by apply keep_refl.
        -- constructor; [left|constructor].
      * intros _. apply Forall2_cons in I as [I It]. constructor; [cbn [map fst]; by rewrite I|exact It].
    + cbn [gen_stmt] in HG. destruct (gen_expr P k m G e) as [[e' i]|] eqn:Ge; [|discriminate].
      destruct (i_ty i) as [t|]; [|discriminate]. destruct (_ && _); [discriminate|].
      destruct (declare G nm _) as [G1|] eqn:D; [|discriminate].
      injection HG as <- <-. apply declare_inv in D as (sc & r & -> & ->).
      destruct E as [|a t0]; [by apply Forall2_cons_nil_inv in I|]. cbn [exec1] in HE.
      destruct (assoc nm a); [discriminate|].
      assert (fl = FNormal) as ->.
      { revert HE. clear. intros H. apply rbind_ok in H as (x & _ & H). destruct (read_loc _ _ _); [|discriminate].
        destruct (assign _ _ _). destruct (write_loc _ _ _ _). congruence. }
      cbn [declared flat_map app].
      destruct (declaration_keep n P k m (sc :: r) (sc :: r) (((nm, Ent t c false) :: sc) :: r) h (a :: t0)
                  sc r a t0 nm (Ent t c false) h' E' e e' i (fresh t) KE Ge eq_refl eq_refl I eq_refl) as [X Y]; [| exact HE|].
      * intros x q Hx Hc. cbn [lookup_all]. rewrite assoc_cons. destruct (same nm x).
        -- by eexists.
        -- by exists q.
      * split; [exact X|]. intros _. exact Y.
    + rewrite gen_if_eq in HG. destruct (gen_expr P k m G e) as [[e' i]|] eqn:Ge; [|discriminate].
      destruct (gen_stmts P k m ([] :: G) a) as [[a' Ga]|] eqn:GA; [|discriminate].
      destruct (gen_stmts P k m ([] :: G) b) as [[b' Gb]|] eqn:GB; [|discriminate]. injection HG as <- <-.
      cbn [exec1] in HE. apply rbind_ok in HE as ([[h1 E1] d1] & H1 & HE). cbn [fst snd] in HE.
      apply rbind_ok in HE as ([[h2 E2] f2] & H2 & HE). cbn [fst snd] in HE. injection HE as <- <- <-.
      pose proof (KE _ _ _ _ _ _ _ _ _ _ _ _ _ Ge I (sub_refl G) H1) as K1. destruct (keep_dom _ _ _ K1) as [_ I1].
      assert (I2 : in_step ([] :: G) ([] :: E1)) by (constructor; [reflexivity|exact I1]).
      apply done0; [|reflexivity]. eapply keep_trans; [exact K1|].
      destruct (negb _).
      * destruct (IHs _ _ _ _ _ _ _ _ _ _ _ _ GA ltac:(discriminate) I2 H2) as [X _]. exact (block_keep _ _ _ _ I1 X).
      * destruct (IHs _ _ _ _ _ _ _ _ _ _ _ _ GB ltac:(discriminate) I2 H2) as [X _]. exact (block_keep _ _ _ _ I1 X).
    + pose proof HG as HG0. rewrite gen_while_eq in HG. destruct (gen_expr P k m G e) as [[e' i]|] eqn:Ge; [|discriminate].
      destruct (gen_stmts P k m ([] :: G) b) as [[b' Gb]|] eqn:GB; [|discriminate]. injection HG as <- <-.
      cbn [exec1] in HE. apply rbind_ok in HE as ([[h1 E1] d1] & H1 & HE). cbn [fst snd] in HE.
      pose proof (KE _ _ _ _ _ _ _ _ _ _ _ _ _ Ge I (sub_refl G) H1) as K1. destruct (keep_dom _ _ _ K1) as [_ I1].
      destruct (_ =? 0).
      { injection HE as <- <- <-. apply done0; [exact K1|reflexivity]. }
      apply rbind_ok in HE as ([[h2 E2] f2] & H2 & HE). cbn [fst snd] in HE.
      assert (I2 : in_step ([] :: G) ([] :: E1)) by (constructor; [reflexivity|exact I1]).
      destruct (IHs _ _ _ _ _ _ _ _ _ _ _ _ GB ltac:(discriminate) I2 H2) as [X _].
      pose proof (keep_trans _ _ _ _ K1 (block_keep _ _ _ _ I1 X)) as K2. destruct (keep_dom _ _ _ K2) as [_ I3].
      destruct f2 as [|d].
      * destruct (IH1 _ _ _ _ _ _ _ _ _ _ _ _ HG0 hG I3 HE) as [Y Z].
        assert (K3 : keep G (tail E2) E').
        { destruct Y as (s0 & r0 & a0 & t0 & na & b0 & t1 & -> & EQ & -> & K & F). rewrite EQ.
          destruct na as [|q na]; [exact K|]. apply Forall_cons in F as [F _]. cbn [declared flat_map app] in F.
          by apply elem_of_nil in F. }
        apply done0; [|reflexivity]. by eapply keep_trans.
      * injection HE as <- <- <-. apply done0; [exact K2|reflexivity].
    + cbn [gen_stmt] in HG. destruct (gen_expr P k m G e) as [[e' i]|] eqn:Ge; [|discriminate]. destruct (_ && _); [|discriminate].
      injection HG as <- <-. cbn [exec1] in HE. apply rbind_ok in HE as ([[h1 E1] d1] & H1 & HE). injection HE as <- <- <-.
      apply done0; [|reflexivity]. eapply KE; [exact Ge|exact I|apply sub_refl|exact H1].
    + cbn [gen_stmt] in HG. destruct (bool_decide _); [|discriminate]. injection HG as <- <-.
      cbn [exec1] in HE. injection HE as <- <- <-. apply done0; [by apply keep_refl|reflexivity].
  - intros P k m G h E ss ss' G' h' E' fl HG hG I HE. destruct ss as [|s ss]; cbn [gen_stmts] in HG.
    + injection HG as <- <-. cbn [exec] in HE. injection HE as <- <- <-. split; [apply ext_keep; [done|by apply keep_refl]|done].
    + destruct (gen_stmt P k m G s) as [[s' G1]|] eqn:G1'; [|discriminate].
      destruct (gen_stmts P k m G1 ss) as [[r' G2]|] eqn:G2'; [|discriminate]. injection HG as <- <-.
      cbn [exec] in HE. apply rbind_ok in HE as ([[h1 E1] f1] & H1 & HE). cbn [fst snd] in HE.
      destruct (IH1 _ _ _ _ _ _ _ _ _ _ _ _ G1' hG I H1) as [X1 Y1].
      destruct (gen_stmt_grows _ _ _ _ _ _ _ hG G1') as (ns & sc & r & EG & ->).
      replace (declared (s :: ss)) with (declared [s] ++ declared ss) by (unfold declared; cbn [flat_map]; by rewrite app_nil_r).
      destruct f1 as [|d].
      * specialize (Y1 eq_refl).
        destruct (IHs _ _ _ _ _ _ _ _ _ _ _ _ G2' ltac:(discriminate) Y1 HE) as [X2 Y2].
        split; [|exact Y2]. eapply ext_trans; [exact EG|exact X1|exact Y1|exact X2].
      * injection HE as <- <- <-. split; [|discriminate].
        destruct X1 as (s0 & r0 & a0 & t0 & na & b0 & t1 & E0 & E2 & E3 & K & F).
        exists s0, r0, a0, t0, na, b0, t1. repeat split; auto; try apply K.
        eapply Forall_impl; [exact F|]. intros q. rewrite elem_of_app. auto.
Qed.

Lemma ext_lookup N G E E' n e :
  ext N G E E' -> lookup_all n G = Some e -> e_const e = true -> n ∉ N -> lookup_all n E' = lookup_all n E.
Proof.
  intros (s & r & a & t & na & b & t' & -> & -> & -> & K & F) L C hn.
  rewrite <- (keep_lookup _ _ _ _ _ K L C). cbn [lookup_all]. rewrite assoc_app.
  destruct (assoc n na) as [v|] eqn:A; [|reflexivity]. exfalso. apply hn.
  apply assoc_in in A. apply elem_of_list_fmap in A as (q & -> & hq). exact (proj1 (Forall_forall _ _) F q hq).
Qed.
