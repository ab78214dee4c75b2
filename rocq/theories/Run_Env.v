(** Typed variables in the scopes of the interpreter. *)
From Coq Require Import Floats.SpecFloat.
From Verif Require Import Base Base_Proofs Text_Model Tok_Model TypeTable TypeSys_Model Value_Model Parse_Spec Stmt_Spec Interp_Model Interp_Spec Run_Spec Run_Base Run_Static Run_Load.

Definition oscope (l : list (str * val)) : scope := map (fun p => (fst p, obj_of (snd p))) l.
Definition oscopes (scs : list env) : list scope := map oscope scs.
Definition cx (scs : list env) (rv : obj) (w : world) : ctx := Ctx (oscopes scs) rv w.
Definition say (w : world) (o : list str) : world := World (w_globals w) (w_exn w) (w_out w ++ o) (w_next w).
Lemma say_nil w : say w [] = w.
Proof. destruct w. unfold say. cbn. by rewrite app_nil_r. Qed.
Lemma say_say w o o' : say (say w o) o' = say w (o ++ o').
Proof. unfold say. cbn. by rewrite app_assoc. Qed.

Definition same_var (a : str * ty) (b : str * val) : Prop := fst a = fst b /\ has_type (snd b) (snd a).
Definition fits_env (G : tenv) (scs : list env) : Prop := Forall2 (Forall2 same_var) G scs.

Fixpoint supd (scs : list env) (x : str) (v : val) : list env :=
  match scs with
  | [] => []
  | s :: r => if assoc s x then update s x v :: r else s :: supd r x v
  end.
(** Variables that the types do not know, in the innermost scope. *)
Definition hide (pre : env) (scs : list env) : list env := match scs with [] => [] | s :: r => (pre ++ s) :: r end.

Lemma sc_get_oscope s x : sc_get (oscope s) x = option_map obj_of (assoc s x).
Proof. induction s as [|[y v] s IH]; [done|]. cbn [oscope map sc_get assoc fst snd]. unfold str_eqb. case_bool_decide; [done|exact IH]. Qed.
Lemma assoc_app {A} (a b : list (str * A)) x : assoc (a ++ b) x = match assoc a x with Some v => Some v | None => assoc b x end.
Proof. induction a as [|[y v] a IH]; [done|]. cbn [app assoc]. case_bool_decide; [done|exact IH]. Qed.
Lemma env_get_oscopes scs x : env_get (oscopes scs) x = option_map obj_of (assoc (concat scs) x).
Proof.
  induction scs as [|s scs IH]; [done|]. cbn [oscopes map env_get concat]. rewrite sc_get_oscope, assoc_app. destruct (assoc s x); [done|exact IH].
Qed.
Lemma update_app a b x v : update (a ++ b) x v = if assoc a x then update a x v ++ b else a ++ update b x v.
Proof.
  induction a as [|[y w] a IH]; [done|]. cbn [app assoc update]. case_bool_decide; [done|]. rewrite IH. destruct (assoc a x); done.
Qed.
Lemma sc_set_oscope s x v : sc_set (oscope s) x (obj_of v) = oscope (update s x v).
Proof. induction s as [|[y w] s IH]; [done|]. cbn [oscope map sc_set update fst snd]. unfold str_eqb. case_bool_decide; [done|]. cbn [map fst snd]. f_equal. exact IH. Qed.
Lemma env_set_oscopes scs x v u : assoc (concat scs) x = Some u ->
  env_set (oscopes scs) x (obj_of v) = Some (oscopes (supd scs x v)) /\ concat (supd scs x v) = update (concat scs) x v.
Proof.
  induction scs as [|s scs IH]; [done|]. cbn [oscopes map env_set concat supd]. rewrite assoc_app, sc_get_oscope, update_app.
  destruct (assoc s x) eqn:Hs; cbn [option_map].
  - intros _. split; [by rewrite sc_set_oscope|done].
  - intros H. destruct (IH H) as [E1 E2]. unfold oscopes in E1. rewrite E1. split; [done|]. cbn [concat]. by rewrite E2.
Qed.

Lemma fits_concat G scs : fits_env G scs -> Forall2 same_var (concat G) (concat scs).
Proof. induction 1 as [|l s G scs H _ IH]; [constructor|]. cbn [concat]. by apply Forall2_app. Qed.
Lemma same_assoc l s x : Forall2 same_var l s ->
  match assoc l x with Some t => exists v, assoc s x = Some v /\ has_type v t | None => assoc s x = None end.
Proof.
  induction 1 as [|[y t] [z v] l s [H1 H2] _ IH]; [done|]. cbn [fst snd] in *. subst z. cbn [assoc]. case_bool_decide; [by exists v|exact IH].
Qed.
Lemma fits_name G scs x t : fits_env G scs -> type_of_name G x = Some t -> exists v, assoc (concat scs) x = Some v /\ has_type v t.
Proof. intros H%fits_concat Hx. pose proof (same_assoc _ _ x H) as A. unfold type_of_name in Hx. by rewrite Hx in A. Qed.
Lemma fits_no_name G scs x : fits_env G scs -> type_of_name G x = None -> assoc (concat scs) x = None.
Proof. intros H%fits_concat Hx. pose proof (same_assoc _ _ x H) as A. unfold type_of_name in Hx. by rewrite Hx in A. Qed.
Lemma same_update l s x v t : Forall2 same_var l s -> assoc l x = Some t -> has_type v t -> Forall2 same_var l (update s x v).
Proof.
  induction 1 as [|[y u] [z w] l s [H1 H2] F IH]; [done|]. cbn [fst snd] in *. subst z. cbn [assoc update]. case_bool_decide.
  - intros [= ->] Hv. constructor; [by split|done].
  - intros Hx Hv. constructor; [by split|auto].
Qed.
Lemma fits_supd G scs x v t : fits_env G scs -> type_of_name G x = Some t -> has_type v t -> fits_env G (supd scs x v).
Proof.
  induction 1 as [|l s G scs H F IH]; [done|]. unfold type_of_name. cbn [concat supd]. rewrite assoc_app. pose proof (same_assoc l s x H) as A.
  destruct (assoc l x) as [u|] eqn:Hl.
  - destruct A as (w & -> & _). intros [= ->] Hv. constructor; [by eapply same_update|done].
  - rewrite A. intros Hx Hv. constructor; [done|by apply IH].
Qed.
Lemma fits_length G scs : fits_env G scs -> length (concat scs) = length (concat G).
Proof. intros H%fits_concat. symmetry. by eapply Forall2_length. Qed.

Lemma assoc_hide pre scs x : assoc pre x = None -> assoc (concat (hide pre scs)) x = assoc (concat scs) x.
Proof. intros H. destruct scs as [|s scs]; [done|]. cbn [hide concat]. rewrite !assoc_app, H. done. Qed.
Lemma supd_hide pre scs x v : assoc pre x = None -> supd (hide pre scs) x v = hide pre (supd scs x v).
Proof.
  intros H. destruct scs as [|s scs]; [done|]. cbn [hide supd]. rewrite assoc_app, H. destruct (assoc s x); cbn [hide]; [|done]. by rewrite update_app, H.
Qed.
Lemma hide_nil scs : hide [] scs = scs.
Proof. by destruct scs. Qed.

(** Reading and writing a typed variable behind hidden ones. *)
Definition hidden (pre : env) (G : tenv) : Prop := forall x, type_of_name G x <> None -> assoc pre x = None.
Lemma get_typed G scs pre x t rv w : fits_env G scs -> hidden pre G -> type_of_name G x = Some t ->
  exists v, assoc (concat scs) x = Some v /\ has_type v t /\ ctx_get (cx (hide pre scs) rv w) x = Some (obj_of v).
Proof.
  intros F Hh Hx. destruct (fits_name _ _ _ _ F Hx) as (v & Hv & Ht). exists v. split; [done|]. split; [done|]. unfold ctx_get, cx. cbn [x_env].
  rewrite env_get_oscopes, assoc_hide by (apply Hh; congruence). by rewrite Hv.
Qed.
Lemma set_typed G scs pre x t v rv w : fits_env G scs -> hidden pre G -> type_of_name G x = Some t -> has_type v t ->
  ctx_set (cx (hide pre scs) rv w) x (obj_of v) = Some (cx (hide pre (supd scs x v)) rv w) /\
  concat (supd scs x v) = update (concat scs) x v /\ fits_env G (supd scs x v).
Proof.
  intros F Hh Hx Hv. destruct (fits_name _ _ _ _ F Hx) as (u & Hu & Ht). assert (Hp : assoc pre x = None) by (apply Hh; congruence).
  destruct (env_set_oscopes (hide pre scs) x v u) as [E1 _]; [by rewrite assoc_hide|]. destruct (env_set_oscopes scs x v u Hu) as [_ E2].
  split; [|split; [done|by eapply fits_supd]]. unfold ctx_set, cx. cbn [x_env x_ret x_world]. rewrite E1, supd_hide by done. done.
Qed.
Lemma hidden_nil G : hidden [] G. Proof. done. Qed.

Lemma fits_introduce G scs x t v G1 : fits_env G scs -> introduce G x t = Some G1 -> has_type v t ->
  exists s r, scs = s :: r /\ fits_env G1 (((x, v) :: s) :: r) /\ assoc s x = None.
Proof.
  unfold introduce. destruct G as [|l G]; [done|]. destruct (proper x && bool_decide (assoc l x = None)) eqn:C; [|done]. intros F [= <-] Hv.
  apply andb_true_iff in C as [_ C%bool_decide_eq_true]. inversion F as [|? s ? r Hs Hr]; subst. exists s, r. split; [done|]. split.
  - constructor; [|done]. by constructor.
  - pose proof (same_assoc l s x Hs) as A. by rewrite C in A.
Qed.
Lemma introduce_own G x t G1 : introduce G x t = Some G1 -> type_of_name G1 x = Some t.
Proof.
  unfold introduce. destruct G as [|l G]; [done|]. destruct (proper x && bool_decide (assoc l x = None)); [|done]. intros [= <-].
  unfold type_of_name. cbn [concat app assoc]. by rewrite bool_decide_true.
Qed.
Lemma declare_ctx s r x v rv w : assoc s x = None ->
  ctx_declare (cx (s :: r) rv w) x (obj_of v) = Some (cx (((x, v) :: s) :: r) rv w).
Proof. intros H. unfold ctx_declare, cx. cbn [x_env oscopes map x_ret x_world]. rewrite sc_get_oscope, H. done. Qed.

(** The typing context behind a statement has the same outer scopes. *)
Lemma introduce_tail G x t G1 : introduce G x t = Some G1 -> tail G1 = tail G /\ G1 <> [].
Proof. unfold introduce. destruct G as [|l G]; [done|]. destruct (_ && _); [|done]. by intros [= <-]. Qed.
Lemma low_tail M r b G s q G' : low M r b G s q G' -> tail G' = tail G /\ (G <> [] -> G' <> []).
Proof.
  destruct 1; try (split; [done|tauto]).
  - destruct (introduce_tail _ _ _ _ H0). split; [done|tauto].
  - destruct (introduce_tail _ _ _ _ H0). split; [done|tauto].
  - destruct (introduce_tail _ _ _ _ H1). split; [done|tauto].
Qed.
(** Leaving a scope. *)
Lemma leave_scope G G'' scs scs'' : fits_env G scs -> fits_env G'' scs'' -> tail G'' = G -> G'' <> [] ->
  leave (concat scs) (concat scs'') = concat (tail scs'') /\ fits_env G (tail scs'').
Proof.
  intros F F'' T N. destruct G'' as [|l G'']; [done|]. cbn [tail] in T. subst G''. inversion F'' as [|? s ? r Hs Hr]; subst. cbn [tail concat]. split; [|done].
  unfold leave. rewrite app_length, (fits_length _ _ F), (fits_length _ _ Hr).
  replace (length s + length (concat G) - length (concat G))%nat with (length s) by lia. by rewrite drop_app.
Qed.

(** Calls *)
Lemma find_linked M ms f m : Forall2 (linked M) M ms -> find_meth M f = Some m -> exists q G,
  find_method ms f (length (me_params m)) = Some (Method (ret_word (me_ret m)) (words (me_params m)) q) /\
  low_all M (me_ret m) false [vars (me_params m)] (me_body m) q G.
Proof.
  assert (H : forall M' ms, Forall2 (linked M) M' ms -> find_meth M' f = Some m -> exists q G,
    find_method ms f (length (me_params m)) = Some (Method (ret_word (me_ret m)) (words (me_params m)) q) /\
    low_all M (me_ret m) false [vars (me_params m)] (me_body m) q G); [|by apply H].
  clear ms. intros M' ms. induction 1 as [|m' l M' ms (q & G & -> & Hl) F IH]; [done|]. cbn [find_meth find_method]. unfold str_eqb. case_bool_decide as Hf.
  - intros [= ->]. cbn [m_params]. unfold words. rewrite map_length, Nat.eqb_refl. cbn [andb]. by exists q, G.
  - cbn [andb]. exact IH.
Qed.
Lemma param_typed t v : has_type v t -> param_obj (type_word t) (obj_of v) = obj_of v.
Proof. by destruct t, v. Qed.
Lemma bind_typed ps : forall vs, NoDup (map snd ps) -> Forall2 has_type vs (map fst ps) ->
  bind_params (words ps) (map obj_of vs) = Ok (oscope (zip (map snd ps) vs)) /\ Forall2 same_var (vars ps) (zip (map snd ps) vs).
Proof.
  induction ps as [|[t x] ps IH]; intros vs ND F; inversion F as [|v ? vs' ? Hv Hvs]; subst; [split; [done|constructor]|]. inversion_clear ND as [|? ? N1 N2].
  destruct (IH vs' N2 Hvs) as [H1 H2]. unfold words in *. cbn [map fst snd bind_params zip zip_with oscope vars] in *. rewrite H1. cbn [rbind]. rewrite sc_get_oscope.
  assert (assoc (zip (map snd ps) vs') x = None) as ->.
  { pose proof (same_assoc _ _ x H2) as A. assert (assoc (vars ps) x = None) as Hn; [|by rewrite Hn in A]. apply assoc_none. unfold vars. by rewrite map_map. }
  cbn [option_map]. rewrite (param_typed t v Hv). split; [done|]. constructor; [by split|exact H2].
Qed.
