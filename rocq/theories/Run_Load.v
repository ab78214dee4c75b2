(** A text of well typed methods is loaded. *)
From Coq Require Import Floats.SpecFloat.
From Verif Require Import Base Base_Proofs Text_Model Text_Proofs Tok_Model TypeTable TypeSys_Model Value_Model Parse_Model Parse_Spec Decl_Model Decl_Spec Decl_Props
  Stmt_Model Stmt_Spec Stmt_Proofs Stmt_Tokens Interp_Model Run_Model Run_Spec Run_Base Run_Static Run_Elab.

(** The loaded methods. *)
Definition words (ps : list (ty * str)) : list (str * str) := map (fun p => (type_word (fst p), snd p)) ps.
Definition vars (ps : list (ty * str)) : list (str * ty) := map (fun p => (snd p, fst p)) ps.
Definition linked (M : program) (m : meth) (l : str * method) : Prop := exists q G,
  l = (me_name m, Method (ret_word (me_ret m)) (words (me_params m)) q) /\
  low_all M (me_ret m) false [vars (me_params m)] (me_body m) q G.
Definition unit_of (u : umethod) (m : meth) : Prop :=
  u_name u = me_name m /\ u_params u = words (me_params m) /\ u_ret u = ret_word (me_ret m) /\
  written_list true (u_body u) (me_body m) /\ tokens_ok (u_body u).

Lemma units_find us M f m : Forall2 unit_of us M -> find_meth M f = Some m ->
  existsb (fun u => str_eqb f (u_name u)) us = true /\
  exists u, find_umethod us f (map type_word (map fst (me_params m))) = Some u /\ unit_of u m.
Proof.
  induction 1 as [|u m' us M (N & P & R & B) F IH]; [done|]. cbn [find_meth existsb find_umethod]. rewrite N. unfold str_eqb.
  case_bool_decide as Hf.
  - intros [= <-]. split; [done|]. rewrite P. unfold words. rewrite !map_map. cbn [fst]. rewrite bool_decide_true by done.
    cbn [andb]. exists u. done.
  - intros Hm. cbn [orb andb]. exact (IH Hm).
Qed.
Lemma units_names us M x : Forall2 unit_of us M -> (forall m, m ∈ M -> proper (me_name m) = true) -> proper x = false ->
  existsb (fun u => str_eqb x (u_name u)) us = false.
Proof.
  intros F Hp Hx. induction F as [|u m us M' (N & _) F IH]; [done|]. cbn [existsb]. rewrite N. unfold str_eqb.
  case_bool_decide as Hf; [|apply IH; intros; apply Hp; by right]. subst x. rewrite Hp in Hx; [done|by left].
Qed.
Lemma unit_env_ok io us M : Forall2 unit_of us M -> (forall m, m ∈ M -> proper (me_name m) = true) -> env_ok M (unit_env io us).
Proof.
  intros F Hp. split; [reflexivity|]. split; [by intros []|]. split; [by intros []|]. split; [done|]. split.
  - intros w t Hw. cbn [unit_env se_env pe_name]. rewrite (units_names us M w F); [|done|by eapply named_not_proper].
    rewrite (named_word w t Hw). by destruct t.
  - intros f m Hm. destruct (units_find _ _ _ _ F Hm) as [H1 (u & H2 & H3)]. cbn [unit_env se_env pe_name pe_method]. rewrite H1, H2.
    split; [done|]. destruct H3 as (_ & _ & -> & _). done.
Qed.

Lemma assoc_none {A} (l : list (str * A)) x : assoc l x = None <-> x ∉ map fst l.
Proof.
  induction l as [|[y a] l IH]; cbn [assoc map fst]; [split; [intros _; by apply not_elem_of_nil|done]|].
  case_bool_decide as H; rewrite not_elem_of_cons; [split; [done|by intros []]|]. rewrite IH. split; [done|by intros []].
Qed.
Lemma param_scopes E ps : (forall t, pe_type (se_env E) (type_word t) = true) -> (forall t, se_atomic E (type_word t) = true) ->
  forall l, NoDup (map snd ps) -> Forall (fun p => proper (snd p) = true) ps -> (forall x, x ∈ map snd ps -> sc_find l x = None) ->
  exists l', param_scope E (words ps) [l] = Ok [l'] /\
    forall x, sc_find l' x = match assoc (vars ps) x with Some t => Some (KVar (type_word t) true) | None => sc_find l x end.
Proof.
  intros Ht Ha. induction ps as [|[t x] ps IH]; intros l ND P N; [by exists l|]. cbn [words vars map fst snd param_scope assoc].
  inversion_clear ND as [|? ? N1 N2]. inversion_clear P as [|? ? P1 P2]. cbn [fst snd] in *.
  unfold proper in P1. apply andb_true_iff in P1 as [P1 _]. destruct (bool_decide (x = [])); [done|]. rewrite Ht, Ha. cbn [negb define_local].
  rewrite (N x) by by left. cbn [rbind].
  destruct (IH ((x, KVar (type_word t) true) :: l) N2 P2) as (l' & H1 & H2).
  - intros y Hy. cbn [sc_find]. unfold str_eqb. case_bool_decide; [by subst|]. apply N. by right.
  - exists l'. split; [exact H1|]. intros y. rewrite H2. cbn [sc_find]. unfold str_eqb. case_bool_decide as Hy.
    + subst y. assert (assoc (vars ps) x = None) as ->; [|done]. apply assoc_none. unfold vars. rewrite map_map. exact N1.
    + done.
Qed.

Lemma load_one io us M u m : Forall2 unit_of us M -> (forall m, m ∈ M -> proper (me_name m) = true) -> unit_of u m -> method_ok M m ->
  exists l, load_method (unit_env io us) u = Ok l /\ linked M m l.
Proof.
  intros F Hp (N & P & R & B & T) (H1 & H2 & H3 & [G H4] & H5). pose proof (unit_env_ok io us M F Hp) as OK. set (E := unit_env io us) in *.
  destruct (checks_low_all _ _ _ _ _ _ H4) as [q Hq]. unfold load_method. rewrite P.
  assert (ND : NoDup (map snd (me_params m))) by (rewrite map_map in H2; exact H2).
  assert (Hpp : Forall (fun p => proper (snd p) = true) (me_params m)) by (apply Forall_map in H3; exact H3).
  pose proof OK as (_ & Hty & Hat & _).
  destruct (param_scopes E (me_params m) Hty Hat [] ND Hpp ltac:(done)) as (l' & L1 & L2). rewrite L1. cbn [rbind].
  assert (A : agrees [vars (me_params m)] [[]; l']).
  { split; [|split; [|done]].
    - intros x. cbn [local sc_find]. rewrite L2. unfold type_of_name. cbn [concat]. rewrite app_nil_r. by destruct (assoc (vars (me_params m)) x).
    - intros w t Hw. unfold type_of_name. cbn [concat]. rewrite app_nil_r. apply assoc_none. intros Hin. unfold vars in Hin. rewrite map_map in Hin.
      apply elem_of_list_fmap in Hin as (p & -> & Hin). rewrite Forall_forall in Hpp. pose proof (Hpp _ Hin) as Hx. cbn [fst] in Hx, Hw.
      rewrite (named_not_proper _ _ Hw) in Hx. done. }
  destruct (proj2 (low_elab M E OK (me_ret m)) _ _ _ _ _ Hq _ A) as (p & E1 & E2 & E3).
  destruct (statements_read E) as (_ & _ & Rd & _). unfold read_method. rewrite (Rd _ _ B T [[]; l']) by lia. rewrite E1. cbn [rbind].
  destruct (method_flows M E (me_ret m) (u_throws u) _ _ _ _ _ _ _ Hq E1 (E3 false ltac:(done)) H5) as [g Hg]. rewrite R, Hg. cbn [rbind]. rewrite E2.
  eexists. split; [reflexivity|]. exists q, G. rewrite N. done.
Qed.
Lemma load_all io us M : (forall m, m ∈ M -> proper (me_name m) = true) -> Forall2 unit_of us M -> Forall (method_ok M) M ->
  exists ms, load_methods (unit_env io us) us = Ok ms /\ Forall2 (linked M) M ms.
Proof.
  intros Hp F W. assert (H : forall us' M', Forall2 unit_of us' M' -> (forall m, m ∈ M' -> m ∈ M) ->
    exists ms, load_methods (unit_env io us) us' = Ok ms /\ Forall2 (linked M) M' ms); [|by apply H].
  intros us' M' F' S. induction F' as [|u m us' M' Hu F' IH]; [by exists []|]. rewrite Forall_forall in W.
  destruct (load_one io us M u m F Hp Hu (W m (S m ltac:(by left)))) as (l & L1 & L2).
  destruct IH as (ms & L3 & L4); [intros; apply S; by right|]. exists (l :: ms). cbn [load_methods]. rewrite L1. cbn [rbind]. rewrite L3. split; [done|].
  by constructor.
Qed.

(** The tokens of a body are tokens of the text. *)
Lemma declare_bodies (Q : token -> Prop) c ts ds : declare c ts ds -> Forall Q ts -> forall v l f t n ps m th body,
  DMethod v l f t n ps m th (Some body) ∈ ds -> Forall Q body.
Proof.
  induction 1 as [|c a d b ds Hd Hb IH]; intros HQ v l f t n ps m th body; [by intros Hx%elem_of_nil|].
  apply Forall_app in HQ as [Ha Hc]. rewrite elem_of_cons. intros [<-|Hin]; [|by eapply IH].
  inversion Hd; subst. repeat (apply Forall_app in Ha as [_ Ha]). inversion_clear Ha as [|? ? _ Hx]. inversion_clear Hx as [|? ? _ Hy].
  apply Forall_app in Hy as [_ Hy]. inversion_clear Hy as [|? ? _ Hz]. apply Forall_app in Hz as [_ Hz]. apply Forall_app in Hz as [_ Hz].
  match goal with H : body_of _ _ _ _ |- _ => inversion H; subst end. inversion_clear Hz as [|? ? _ Hw]. by apply Forall_app in Hw as [Hw _].
Qed.

Lemma methods_units ds M : Forall2 declares_method ds M ->
  (forall v l f t n ps m th body, DMethod v l f t n ps m th (Some body) ∈ ds -> tokens_ok body) ->
  exists us, methods_of ds = Ok us /\ Forall2 unit_of us M.
Proof.
  induction 1 as [|d m ds M Hd F IH]; intros T; [by exists []|]. destruct Hd as (v & l & f & mu & th & body & -> & Hf & W).
  destruct IH as (us & U1 & U2); [intros; eapply T; right; eassumption|].
  set (ps := map _ (me_params m)).
  assert (Hd : forallb plain_param ps = true /\ map (fun p => (td_name (pa_type p), pa_name p)) ps = words (me_params m)).
  { subst ps. clear. induction (me_params m) as [|q qs IH]; [done|]. destruct IH as [I1 I2]. cbn [forallb map words]. rewrite I1, I2. by destruct q. }
  destruct Hd as [D1 D2]. cbn [methods_of]. rewrite D1, U1, D2. assert (match f with NotImplemented => false | _ => true end = true) as -> by by destruct f.
  cbn [rbind andb]. eexists. split; [reflexivity|]. constructor; [|exact U2].
  split; [done|]. split; [done|]. split; [done|]. split; [done|]. eapply T. by left.
Qed.

Theorem load_text_ok io ext inst text M : text_of text M -> well_typed M ->
  exists ms, load_text io ext inst text = Ok (Prog ms [] ext inst io) /\ Forall2 (linked M) M ms.
Proof.
  intros (ts & e & raw & ds & Ht & He & Hs & Hr & Ho & Hn & Hd & F) [ND W].
  destruct (tokens_as_expected _ _ _ Hr Ho Ht) as [_ [T1 T2]]. apply Forall_app in T1 as [T1 _]. apply Forall_app in T2 as [T2 _].
  destruct (methods_units ds M F) as (us & U1 & U2).
  { intros v l f t n ps m th body Hin. split; [by eapply declare_bodies in T1|by eapply declare_bodies in T2]. }
  assert (Hp : forall m, m ∈ M -> proper (me_name m) = true) by (intros m Hm; rewrite Forall_forall in W; by destruct (W m Hm)).
  destruct (load_all io us M Hp U2 W) as (ms & L1 & L2). exists ms. split; [|exact L2].
  unfold load_text. rewrite (C65_text _ _ _ _ Ht Hd He Hs Hn). cbn [rbind]. rewrite U1. cbn [rbind]. rewrite L1. done.
Qed.
