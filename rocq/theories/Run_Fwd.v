(** What the semantics of the language says, the structured semantics of the trees says too. *)
From Coq Require Import Floats.SpecFloat.
From Verif Require Import Base Base_Proofs Text_Model Tok_Model TypeTable TypeSys_Model Value_Model Parse_Spec Stmt_Spec Interp_Model Interp_Spec Run_Spec Run_Base Run_Static Run_Load Run_Env.

Scheme value_mut := Minimality for value Sort Prop
  with values_mut := Minimality for values Sort Prop
  with calls_mut := Minimality for Run_Spec.calls Sort Prop
  with does_mut := Minimality for does Sort Prop
  with does_all_mut := Minimality for does_all Sort Prop
  with rounds_mut := Minimality for Run_Spec.rounds Sort Prop.
Combined Scheme run_mut from value_mut, values_mut, calls_mut, does_mut, does_all_mut, rounds_mut.
Scheme does_mut2 := Minimality for does Sort Prop
  with does_all_mut2 := Minimality for does_all Sort Prop
  with rounds_mut2 := Minimality for Run_Spec.rounds Sort Prop.
Combined Scheme does_both from does_mut2, does_all_mut2, rounds_mut2.

Definition stays (ret lp : bool) (k : outcome) : Prop := (ret = false -> forall r, k <> Returned r) /\ (lp = false -> k <> Broken).
Lemma steady_ends M :
  (forall ρ s k ρ' o, does M ρ s k ρ' o -> forall rt lp, steady rt lp s = true -> stays rt lp k) /\
  (forall ρ l k ρ' o, does_all M ρ l k ρ' o -> forall rt lp, forallb (steady rt lp) l = true -> stays rt lp k) /\
  (forall ρ c u b k ρ' o, Run_Spec.rounds M ρ c u b k ρ' o -> forall rt, steady rt true b = true -> stays rt false k).
Proof.
  apply does_both; try (intros; split; done).
  - intros ρ rt lp H. cbn [steady] in H. subst lp. by split.
  - intros ρ rt lp H. cbn [steady] in H. subst rt. by split.
  - intros ρ e v ρ' o _ rt lp H. cbn [steady] in H. subst rt. by split.
  - intros ρ c a b k ρ1 ρ2 o o' _ _ IH rt lp H. cbn [steady] in H. apply andb_true_iff in H as [H _]. by apply IH.
  - intros ρ c a b k ρ1 ρ2 o o' _ _ IH rt lp H. cbn [steady] in H. apply andb_true_iff in H as [_ H]. by apply IH.
  - intros ρ c b k ρ' o _ IH rt lp H. destruct (IH _ H) as [H1 H2]. split; [done|]. intros _. by apply H2.
  - intros ρ i c u b k ρ1 ρ2 o o' _ _ _ IH rt lp H. destruct (IH _ H) as [H1 H2]. split; [done|]. intros _. by apply H2.
  - intros ρ l k ρ' o _ IH rt lp H. by apply IH.
  - intros ρ s l k ρ1 ρ2 o o' _ _ _ IH rt lp H. cbn [forallb] in H. apply andb_true_iff in H as [_ H]. by apply IH.
  - intros ρ s l k ρ1 o _ IH _ rt lp H. cbn [forallb] in H. apply andb_true_iff in H as [H _]. by apply IH.
  - intros ρ c u b r ρ1 ρ2 o o' _ _ IH rt H. destruct (IH _ _ H) as [N _]. by split.
  - intros ρ c b k k' ρ1 ρ2 ρ3 o1 o2 o3 _ _ _ _ _ IH rt H. by apply IH.
  - intros ρ c u b k k' ρ1 ρ2 ρ3 ρ4 o1 o2 o3 o4 _ _ _ _ _ _ _ IH rt H. by apply IH.
Qed.
(** A statement that always returns does not just end. *)
Lemma returned M :
  (forall ρ s k ρ' o, does M ρ s k ρ' o -> returns s = true -> k <> Onward) /\
  (forall ρ l k ρ' o, does_all M ρ l k ρ' o -> returns (YBlock l) = true -> k <> Onward) /\
  (forall ρ c u b k ρ' o, Run_Spec.rounds M ρ c u b k ρ' o -> True).
Proof.
  apply does_both; try done.
  - intros ρ c a b k ρ1 ρ2 o o' _ _ IH H. destruct b; [|discriminate H]. cbn [returns] in H. apply andb_true_iff in H as [H _]. by apply IH.
  - intros ρ c a b k ρ1 ρ2 o o' _ _ IH H. cbn [returns] in H. apply andb_true_iff in H as [_ H]. by apply IH.
  - intros ρ s l k ρ1 ρ2 o o' _ IHs _ IHl H. destruct l as [|s' l]; [by destruct (IHs H)|]. by apply IHl.
Qed.

(** A method without a value does not return one. *)
Lemma no_value M :
  (forall ρ s k ρ' o, does M ρ s k ρ' o -> forall b G q G' v, low M None b G s q G' -> k <> Returned (Some v)) /\
  (forall ρ l k ρ' o, does_all M ρ l k ρ' o -> forall b G q G' v, low_all M None b G l q G' -> k <> Returned (Some v)) /\
  (forall ρ c u b k ρ' o, Run_Spec.rounds M ρ c u b k ρ' o -> forall bl G q v, low M None bl G b q G -> k <> Returned (Some v)).
Proof.
  apply does_both; try (intros; done).
  - intros ρ e v ρ' o _ b G q G' v' Hl. inversion Hl; subst. done.
  - intros ρ c a b k ρ1 ρ2 o o' _ _ IH b' G q G' v Hl. inversion Hl; subst; by eapply IH.
  - intros ρ c a b k ρ1 ρ2 o o' _ _ IH b' G q G' v Hl. inversion Hl; subst; by eapply IH.
  - intros ρ c b k ρ' o _ IH b' G q G' v Hl. inversion Hl; subst; by eapply IH.
  - intros ρ i c u b k ρ1 ρ2 o o' _ _ _ IH b' G q G' v Hl. inversion Hl; subst; by eapply IH.
  - intros ρ l k ρ' o _ IH b' G q G' v Hl. inversion Hl; subst; by eapply IH.
  - intros ρ s l k ρ1 ρ2 o o' _ _ _ IH b' G q G' v Hl. inversion Hl; subst; by eapply IH.
  - intros ρ s l k ρ1 o _ IH _ b' G q G' v Hl. inversion Hl; subst; by eapply IH.
  - intros ρ c u b r ρ1 ρ2 o o' _ _ IH bl G q v Hl. by eapply IH.
  - intros ρ c b k k' ρ1 ρ2 ρ3 o1 o2 o3 _ _ _ _ _ IH bl G q v Hl. by eapply IH.
  - intros ρ c u b k k' ρ1 ρ2 ρ3 ρ4 o1 o2 o3 o4 _ _ _ _ _ _ _ IH bl G q v Hl. by eapply IH.
Qed.

Definition ending_of (k : outcome) : ending :=
  match k with Onward => Done | Broken => Brk | Continued => Cont | Returned _ => Ret end.
Definition rv_of (k : outcome) : obj := match k with Returned (Some v) => obj_of v | _ => anon end.
Definition typed_end (r : option ty) (v : option val) : Prop :=
  match r, v with None, None => True | Some t, Some v => has_type v t | _, _ => False end.
Definition ends (b : bool) (r : option ty) (k : outcome) : Prop :=
  match k with Onward => True | Broken | Continued => b = true | Returned v => typed_end r v end.

(** The scopes behind a statement; a return may leave some behind. *)
Definition lands (k : outcome) (scs : list env) (E : list scope) : Prop :=
  match k with Returned _ => True | _ => E = oscopes scs end.

Section Fwd.
Context (M : program) (P : prog) (W : well_typed M) (L : Forall2 (linked M) M (p_methods P)).
Notation F := (p_io P).

Definition Pv ρ x v ρ' o := forall G t e, lx M G x t e -> forall scs pre d rv w,
  fits_env G scs -> hidden pre G -> ρ = concat scs -> takes d t -> exists scs',
  ρ' = concat scs' /\ fits_env G scs' /\ has_type v t /\
  ev P Leaky (cx (hide pre scs) rv w) e d (V (obj_of v)) (cx (hide pre scs') rv (say w o)).
Definition Pvs ρ l vs ρ' o := forall G ts es, lxs M G l ts es -> forall scs pre rv w,
  fits_env G scs -> hidden pre G -> ρ = concat scs -> exists scs',
  ρ' = concat scs' /\ fits_env G scs' /\ Forall2 has_type vs ts /\
  evs P Leaky (cx (hide pre scs) rv w) es (Some (map obj_of vs)) (cx (hide pre scs') rv (say w o)).
Definition Pc f vs r o := forall m, find_meth M f = Some m -> Forall2 has_type vs (map fst (me_params m)) ->
  typed_end (me_ret m) r /\ forall g d, Interp_Spec.calls P Leaky g f (map obj_of vs) d
    (V (match r with Some v => obj_of v | None => d end)) (Ctx (x_env g) (x_ret g) (say (x_world g) o)).
Definition Pd ρ s k ρ' o := forall r b G q G', low M r b G s q G' -> forall scs w, fits_env G scs -> ρ = concat scs -> exists scs' Z,
  ρ' = concat scs' /\ fits_env G' scs' /\ ends b r k /\ lands k scs' Z /\
  runs P Leaky (cx scs anon w) (stm q) (ending_of k) (Ctx Z (rv_of k) (say w o)).
Definition Pl ρ l k ρ' o := forall r b G q G', low_all M r b G l q G' -> G <> [] -> forall scs w, fits_env G scs -> ρ = concat scs -> exists scs' Z G'',
  ρ' = concat scs' /\ fits_env G'' scs' /\ tail G'' = tail G /\ G'' <> [] /\ ends b r k /\ lands k scs' Z /\
  runs_list P Leaky (cx scs anon w) q (ending_of k) (Ctx Z (rv_of k) (say w o)).
Definition Pr ρ c u b k ρ' o := forall r bl G c' qb, lx M G c TBool c' -> low M r bl G b qb G -> forall scs d w,
  fits_env G scs -> ρ = concat scs -> takes d TBool ->
  match u with
  | None => exists scs' Z, ρ' = concat scs' /\ fits_env G scs' /\ ends false r k /\ lands k scs' Z /\
      runs_loop P Leaky (cx scs anon w) c' (stm qb) d (ending_of k) (Ctx Z (rv_of k) (say w o))
  | Some u => forall qu, low M r false G u qu G -> steady true false b = true -> exists scs' Z, ρ' = concat scs' /\ fits_env G scs' /\ ends false r k /\ lands k scs' Z /\
      runs_rounds P Leaky (cx scs anon w) (Some c') (stm qu) (stm qb) d (ending_of k) (Ctx Z (rv_of k) (say w o))
  end.

Lemma runs_skip_inv g k g' : runs P Leaky g SSkip k g' -> k = Done /\ g' = g.
Proof. by inversion 1. Qed.
Lemma runs_nil_inv g k g' : runs_list P Leaky g [] k g' -> k = Done /\ g' = g.
Proof. by inversion 1. Qed.
Lemma find_ok f m : find_meth M f = Some m -> method_ok M m.
Proof.
  destruct W as [_ W']. rewrite Forall_forall in W'. intros Hm. apply W'. clear -Hm. induction M as [|m' M' IH]; [done|].
  cbn [find_meth] in Hm. apply elem_of_cons. case_bool_decide; [injection Hm as <-; by left|right; auto].
Qed.
Lemma no_value_call f vs v o m : Run_Spec.calls M f vs (Some v) o -> find_meth M f = Some m -> me_ret m = None -> False.
Proof.
  intros Hc Hm Hr. inversion Hc as [? ? m' k ? ? ? Hm' Hlen Hb Hk]; subst. assert (m' = m) as -> by congruence.
  destruct (find_linked M (p_methods P) f m L Hm) as (q & G & _ & Hlow). rewrite Hr in Hlow.
  destruct Hk as [->|[_ ?]]; [|done]. exact (proj1 (proj2 (no_value M)) _ _ _ _ _ Hb _ _ _ _ v Hlow eq_refl).
Qed.
Lemma named_default t0 t : named_type_of t0 = Some t -> default_obj t0 = obj_of (default t).
Proof. intros H. rewrite <- obj_default. f_equal. revert H. unfold named_type_of. repeat (case_bool_decide; [intros [= <-]; subst; reflexivity|]). done. Qed.
Lemma pop_cx scs rv w : ctx_pop (cx scs rv w) = cx (tail scs) rv w.
Proof. by destruct scs. Qed.
Lemma pop_push g : ctx_pop (ctx_push g) = g.
Proof. by destruct g. Qed.
Lemma hide_one x v s r : hide [(x, v)] (s :: r) = ((x, v) :: s) :: r.
Proof. done. Qed.

Lemma fwd_all :
  (forall ρ x v ρ' o, value M ρ x v ρ' o -> Pv ρ x v ρ' o) /\
  (forall ρ l vs ρ' o, values M ρ l vs ρ' o -> Pvs ρ l vs ρ' o) /\
  (forall f vs r o, Run_Spec.calls M f vs r o -> Pc f vs r o) /\
  (forall ρ s k ρ' o, does M ρ s k ρ' o -> Pd ρ s k ρ' o) /\
  (forall ρ l k ρ' o, does_all M ρ l k ρ' o -> Pl ρ l k ρ' o) /\
  (forall ρ c u b k ρ' o, Run_Spec.rounds M ρ c u b k ρ' o -> Pr ρ c u b k ρ' o).
Proof.
  apply (run_mut M Pv Pvs Pc Pd Pl Pr).
  - (* numbers *)
    intros ρ s z Hz G t e Hx scs pre d rv w Fi Hh -> Td. inversion Hx; subst. assert (z0 = z) as -> by congruence.
    exists scs. rewrite say_nil. split; [done|]. split; [done|]. split; [by eapply number_literal|]. constructor.
  - intros ρ s G t e Hx scs pre d rv w Fi Hh -> Td. inversion Hx; subst. exists scs. rewrite say_nil. repeat (split; [done|]). constructor.
  - intros ρ s G t e Hx scs pre d rv w Fi Hh -> Td. inversion Hx; subst. exists scs. rewrite say_nil. repeat (split; [done|]). constructor.
  - (* names *)
    intros ρ x v Hv G t e Hx scs pre d rv w Fi Hh -> Td. inversion Hx as [| | |? ? Ht| | | | | | | | | |]; subst. exists scs. rewrite say_nil.
    destruct (get_typed G scs pre x t rv w Fi Hh Ht) as (v' & H1 & H2 & H3). assert (v' = v) as -> by congruence.
    split; [done|]. split; [done|]. split; [done|]. by constructor.
  - (* calls *)
    intros ρ f args vs v ρ' o o' _ IHs _ IHc G t e Hx scs pre d rv w Fi Hh Hρ Td. inversion Hx as [| | | |? ? m ? es Hm Hr Hl| | | | | | | | |]; subst.
    destruct (IHs _ _ _ Hl scs pre rv w Fi Hh eq_refl) as (scs' & H1 & H2 & H3 & H4). destruct (IHc _ Hm H3) as [H5 H6].
    exists scs'. split; [done|]. split; [done|]. rewrite Hr in H5. split; [exact H5|].
    eapply ev_call; [exact H4|]. specialize (H6 (cx (hide pre scs') rv (say w o)) d). cbn [cx x_env x_ret x_world] in H6. rewrite say_say in H6. exact H6.
  - (* minus *)
    intros ρ s a z ρ' o _ IH Hf G t e Hx scs pre d rv w Fi Hh Hρ Td. inversion Hx as [| | | | |? ? e' Ha| | | | | | | |]; subst.
    destruct (IH _ _ _ Ha scs pre d rv w Fi Hh eq_refl Td) as (scs' & H1 & H2 & H3 & H4). exists scs'. split; [done|]. split; [done|]. split; [done|].
    eapply ev_un; [exact H4|]. rewrite int_un; [|exact H3|by left]. by rewrite checked_fits.
  - (* not *)
    intros ρ s a b ρ' o _ IH G t e Hx scs pre d rv w Fi Hh Hρ Td. inversion Hx as [| | | | | |? ? e' Ha| | | | | | |]; subst.
    destruct (IH _ _ _ Ha scs pre d rv w Fi Hh eq_refl Td) as (scs' & H1 & H2 & H3 & H4). exists scs'. split; [done|]. split; [done|]. split; [done|].
    eapply ev_un; [exact H4|]. apply not_un.
  - (* ++ *)
    intros ρ x s z Hz Hf G t e Hx scs pre d rv w Fi Hh -> Td. inversion Hx as [| | | | | | |? ? Ht| | | | | |]; subst.
    destruct (get_typed G scs pre x TInt rv w Fi Hh Ht) as (v' & H1 & H2 & H3). assert (v' = VInt z) as -> by congruence.
    destruct (set_typed G scs pre x TInt (VInt (z + 1)) rv w Fi Hh Ht Hf) as (H4 & H5 & H6). exists (supd scs x (VInt (z + 1))). rewrite say_nil.
    split; [done|]. split; [done|]. split; [done|]. eapply ev_step; [exact H3| |exact H4|by eapply assign_takes].
    rewrite int_un; [|exact H2|right; by left]. by rewrite checked_fits.
  - (* -- *)
    intros ρ x s z Hz Hf G t e Hx scs pre d rv w Fi Hh -> Td. inversion Hx as [| | | | | | | |? ? Ht| | | | |]; subst.
    destruct (get_typed G scs pre x TInt rv w Fi Hh Ht) as (v' & H1 & H2 & H3). assert (v' = VInt z) as -> by congruence.
    destruct (set_typed G scs pre x TInt (VInt (z - 1)) rv w Fi Hh Ht Hf) as (H4 & H5 & H6). exists (supd scs x (VInt (z - 1))). rewrite say_nil.
    split; [done|]. split; [done|]. split; [done|]. eapply ev_step; [exact H3| |exact H4|by eapply assign_takes].
    rewrite int_un; [|exact H2|right; right; by left]. by rewrite checked_fits.
  - (* ?: *)
    intros ρ c a b t0 v ρ1 ρ2 o o' _ IHc _ IHa G t e Hx scs pre d rv w Fi Hh Hρ Td. inversion Hx as [| | | | | | | | |? ? ? ? ec ea eb Hc Ha Hb| | | |]; subst.
    destruct (IHc _ _ _ Hc scs pre anon rv w Fi Hh eq_refl (takes_anon _)) as (s1 & A1 & A2 & A3 & A4).
    assert (exists s2, ρ2 = concat s2 /\ fits_env G s2 /\ has_type v t /\
      ev P Leaky (cx (hide pre s1) rv (say w o)) (if t0 then ea else eb) d (V (obj_of v)) (cx (hide pre s2) rv (say w (o ++ o')))) as (s2 & B1 & B2 & B3 & B4).
    { rewrite <- say_say. destruct t0; [destruct (IHa _ _ _ Ha s1 pre d rv (say w o) A2 Hh A1 Td) as (s2 & ?)|destruct (IHa _ _ _ Hb s1 pre d rv (say w o) A2 Hh A1 Td) as (s2 & ?)]; by exists s2. }
    exists s2. split; [done|]. split; [done|]. split; [done|]. eapply ev_tern; [exact A4|]. by rewrite is_true_bool.
  - (* && *)
    intros ρ k s a b ρ1 o _ IH G t e Hx scs pre d rv w Fi Hh Hρ Td. inversion Hx as [| | | | | | | | | |? ? ? ? ea eb _ Ha Hb|? ? ? ? ? ? ? ? ? ? Hk Ho|? ? ? ? ? ? ? ? ? Hn Ho|]; subst.
    + destruct (IH _ _ _ Ha scs pre anon rv w Fi Hh eq_refl (takes_anon _)) as (s1 & A1 & A2 & A3 & A4). exists s1. repeat (split; [done|]).
      eapply ev_and_false; [exact A4|done].
    + destruct Hk as [->| ->]; discriminate Ho.
    + discriminate Ho.
  - intros ρ k s a b t0 ρ1 ρ2 o o' _ IHa _ IHb G t e Hx scs pre d rv w Fi Hh Hρ Td. inversion Hx as [| | | | | | | | | |? ? ? ? ea eb _ Ha Hb|? ? ? ? ? ? ? ? ? ? Hk Ho|? ? ? ? ? ? ? ? ? Hn Ho|]; subst.
    + destruct (IHa _ _ _ Ha scs pre anon rv w Fi Hh eq_refl (takes_anon _)) as (s1 & A1 & A2 & A3 & A4).
      destruct (IHb _ _ _ Hb s1 pre anon rv (say w o) A2 Hh A1 (takes_anon _)) as (s2 & B1 & B2 & B3 & B4). exists s2. repeat (split; [done|]).
      rewrite <- say_say. apply (ev_and P Leaky _ _ _ _ _ _ _ _ A4 eq_refl B4).
    + destruct Hk as [->| ->]; discriminate Ho.
    + discriminate Ho.
  - (* || *)
    intros ρ k s a b ρ1 o _ IH G t e Hx scs pre d rv w Fi Hh Hρ Td. inversion Hx as [| | | | | | | | | |? ? ? ? ea eb _ Ha Hb|? ? ? ? ? ? ? ? ? ? Hk Ho|? ? ? ? ? ? ? ? ? Hn Ho|]; subst.
    + destruct (IH _ _ _ Ha scs pre anon rv w Fi Hh eq_refl (takes_anon _)) as (s1 & A1 & A2 & A3 & A4). exists s1. repeat (split; [done|]).
      eapply ev_or_true; [exact A4|done].
    + destruct Hk as [->| ->]; discriminate Ho.
    + discriminate Ho.
  - intros ρ k s a b t0 ρ1 ρ2 o o' _ IHa _ IHb G t e Hx scs pre d rv w Fi Hh Hρ Td. inversion Hx as [| | | | | | | | | |? ? ? ? ea eb _ Ha Hb|? ? ? ? ? ? ? ? ? ? Hk Ho|? ? ? ? ? ? ? ? ? Hn Ho|]; subst.
    + destruct (IHa _ _ _ Ha scs pre anon rv w Fi Hh eq_refl (takes_anon _)) as (s1 & A1 & A2 & A3 & A4).
      destruct (IHb _ _ _ Hb s1 pre anon rv (say w o) A2 Hh A1 (takes_anon _)) as (s2 & B1 & B2 & B3 & B4). exists s2. repeat (split; [done|]).
      rewrite <- say_say. apply (ev_or P Leaky _ _ _ _ _ _ _ _ A4 eq_refl B4).
    + destruct Hk as [->| ->]; discriminate Ho.
    + discriminate Ho.
  - (* operations *)
    intros ρ k op s a b u w0 v ρ1 ρ2 o o' _ IHa _ IHb Hc G t e Hx scs pre d rv w Fi Hh Hρ Td.
    inversion Hx as [| | | | | | | | | |? ? ? ? ea eb Hop Ha Hb|? ? ? ? ? t1 t2 ? ea eb Hk Ho Ha Hb|? ? ? ? t1 t2 ? ea eb Hn Ho Ha Hb|? ? ? t1 ea eb Ha Hb]; subst.
    + exfalso. destruct Hop as [->| ->]; inversion Hc.
    + destruct (IHa _ _ _ Ha scs pre anon rv w Fi Hh eq_refl (takes_anon _)) as (s1 & A1 & A2 & A3 & A4).
      destruct (IHb _ _ _ Hb s1 pre anon rv (say w o) A2 Hh A1 (takes_anon _)) as (s2 & B1 & B2 & B3 & B4). exists s2. rewrite <- say_say.
      destruct (arithmetic P k op t1 t2 t u w0 Hk Ho A3 B3) as [(v' & C1 & C2 & C3)|[_ N]]; [|by destruct (N v)].
      rewrite (combine_unique _ _ _ _ _ Hc C1). split; [done|]. split; [done|]. split; [done|]. eapply ev_bin; [exact A4|exact B4|exact C3|by eapply assign_takes].
    + destruct (IHa _ _ _ Ha scs pre anon rv w Fi Hh eq_refl (takes_anon _)) as (s1 & A1 & A2 & A3 & A4).
      destruct (IHb _ _ _ Hb s1 pre anon rv (say w o) A2 Hh A1 (takes_anon _)) as (s2 & B1 & B2 & B3 & B4). exists s2. rewrite <- say_say.
      destruct (comparison P op t1 t2 t u w0 Hn Ho A3 B3) as (r & -> & C2 & C3 & C4).
      rewrite (combine_unique _ _ _ _ _ Hc C2). split; [done|]. split; [done|]. split; [done|].
      eapply ev_compare; [..|exact A4|exact B4|exact C3]; intros ->; apply C4; repeat (apply elem_of_cons; (left; reflexivity) || right).
    + destruct (IHa _ _ _ Ha scs pre anon rv w Fi Hh eq_refl (takes_anon _)) as (s1 & A1 & A2 & A3 & A4).
      destruct (IHb _ _ _ Hb s1 pre anon rv (say w o) A2 Hh A1 (takes_anon _)) as (s2 & B1 & B2 & B3 & B4). exists s2. rewrite <- say_say.
      assert (Ho : operation_type 2 COMPARE_EQUAL t1 t1 = Some TBool) by (cbn; by rewrite bool_decide_true).
      destruct (comparison P COMPARE_EQUAL t1 t1 TBool u w0 ltac:(done) Ho A3 B3) as (r & _ & C2 & C3 & C4).
      assert (v = VBool (negb r)) as -> by (inversion C2; inversion Hc; subst; done). split; [done|]. split; [done|]. split; [done|].
      eapply ev_un; [|apply not_un]. eapply ev_compare; [..|exact A4|exact B4|exact C3]; done.
  - (* no arguments *)
    intros ρ G ts es Hx scs pre rv w Fi Hh ->. inversion Hx; subst. exists scs. rewrite say_nil. repeat (split; [done || constructor|]). constructor.
  - intros ρ a l v vs ρ1 ρ2 o o' _ IHa _ IHl G ts es Hx scs pre rv w Fi Hh Hρ. inversion Hx as [|? ? ? ? ? ? Ha Hl]; subst.
    destruct (IHa _ _ _ Ha scs pre anon rv w Fi Hh eq_refl (takes_anon _)) as (s1 & A1 & A2 & A3 & A4).
    destruct (IHl _ _ _ Hl s1 pre rv (say w o) A2 Hh A1) as (s2 & B1 & B2 & B3 & B4). exists s2. rewrite <- say_say.
    split; [done|]. split; [done|]. split; [by constructor|]. cbn [map]. by econstructor.
  - (* the body of a method *)
    intros f vs m k r ρ o Hm Hlen Hb IH Hk m' Hm' Ht. assert (m' = m) as -> by congruence. clear Hm'.
    destruct (find_linked M (p_methods P) f m L Hm) as (q & G & Hf & Hlow).
    pose proof (find_ok f m Hm) as Hok.
    destruct Hok as (_ & ND & _ & _ & Hret). rewrite map_map in ND.
    destruct (bind_typed (me_params m) vs ND Ht) as [Hbind Hsame].
    assert (Fi : fits_env [vars (me_params m)] [zip (map snd (me_params m)) vs]) by (constructor; [exact Hsame|constructor]).
    assert (Hr : typed_end (me_ret m) r /\ forall w, exists Z, runs_list P Leaky (cx [zip (map snd (me_params m)) vs] anon w) q (ending_of k) (Ctx Z (rv_of k) (say w o))).
    { split.
      - destruct (IH _ _ _ _ _ Hlow ltac:(done) _ (World [] None [] 0%N) Fi ltac:(cbn [concat]; by rewrite app_nil_r)) as (scs' & Z & G'' & _ & _ & _ & _ & He & _).
        destruct Hk as [->|[-> ->]]; [exact He|]. destruct (me_ret m); [|done]. by destruct (proj1 (proj2 (returned M)) _ _ _ _ _ Hb (Hret ltac:(done))).
      - intros w. destruct (IH _ _ _ _ _ Hlow ltac:(done) _ w Fi ltac:(cbn [concat]; by rewrite app_nil_r)) as (scs' & Z & G'' & _ & _ & _ & _ & _ & _ & H). by exists Z. }
    destruct Hr as [Hr Hrun]. split; [exact Hr|]. intros g d. destruct (Hrun (x_world g)) as [scs' R].
    assert (Hlen' : length (map obj_of vs) = length (me_params m)) by (rewrite map_length; exact Hlen).
    assert (Hv : (match r with Some v => obj_of v | None => d end) = if str_eqb (ret_word (me_ret m)) t_void then d else rv_of k).
    { destruct (me_ret m) as [t|] eqn:Hrt, r as [v|]; try done.
      destruct Hk as [->|[_ ?]]; [|done]. by destruct t. }
    rewrite Hv. eapply (calls_method P Leaky g f (map obj_of vs) d (Method (ret_word (me_ret m)) (words (me_params m)) q)).
    + rewrite Hlen'. exact Hf.
    + exact Hbind.
    + exact R.
    + destruct Hk as [->|[-> _]]; [by right|by left].
  - (* statements *)
    intros ρ r b G q G' Hx scs w Fi ->. inversion Hx; subst. exists scs, (oscopes scs). rewrite say_nil. repeat (split; [done|]). constructor.
  - intros ρ x v ρ' o Hval IH r b G q G' Hx scs w Fi Hρ. inversion Hx as [|? ? ? t e He|? ? f args m es Hm Hrm Hl| | | | | | | | | | | | | | | |]; subst.
    + destruct (IH _ _ _ He scs [] anon anon w Fi (hidden_nil _) eq_refl (takes_anon _)) as (s1 & A1 & A2 & A3 & A4). rewrite !hide_nil in A4.
      exists s1, (oscopes s1). repeat (split; [done|]). by eapply runs_expr.
    + (* a method without a value has none *)
      exfalso. inversion Hval as [| | | |? ? ? vs ? ? ? ? Hvs Hcall| | | | | | | | | |]; subst. by eapply (no_value_call f vs v).
  - (* a call for its effect *)
    intros ρ f args vs v ρ' o o' _ IHs Hcall IHc r b G q G' Hx scs w Fi Hρ. inversion Hx as [|? ? ? t e He|? ? ? ? m es Hm Hrm Hl| | | | | | | | | | | | | | | |]; subst.
    + inversion He as [| | | |? ? m ? es Hm Hrm Hl| | | | | | | | |]; subst.
      destruct (IHs _ _ _ Hl scs [] anon w Fi (hidden_nil _) eq_refl) as (s1 & A1 & A2 & A3 & A4). rewrite !hide_nil in A4.
      destruct (IHc _ Hm A3) as [B1 B2]. specialize (B2 (cx s1 anon (say w o)) anon). cbn [cx x_env x_ret x_world] in B2. rewrite say_say in B2.
      exists s1, (oscopes s1). repeat (split; [done|]). eapply runs_expr, ev_call; [exact A4|exact B2].
    + destruct (IHs _ _ _ Hl scs [] anon w Fi (hidden_nil _) eq_refl) as (s1 & A1 & A2 & A3 & A4). rewrite !hide_nil in A4.
      destruct (IHc _ Hm A3) as [B1 B2]. specialize (B2 (cx s1 anon (say w o)) anon). cbn [cx x_env x_ret x_world] in B2. rewrite say_say in B2.
      exists s1, (oscopes s1). repeat (split; [done|]). eapply runs_expr, ev_call; [exact A4|exact B2].
  - (* assignments *)
    intros ρ x a v ρ' o _ IH r b G q G' Hx scs w Fi Hρ. inversion Hx as [| | |? ? ? ? t e Ht He|? ? ? ? ? ? ? ? ? ? Hop| | | | | | | | | | | | | |]; subst; [|discriminate Hop].
    destruct (get_typed G' scs [] x t anon w Fi (hidden_nil _) Ht) as (l0 & _ & _ & G1). rewrite hide_nil in G1.
    destruct (IH _ _ _ He scs [] anon anon w Fi (hidden_nil _) eq_refl (takes_anon _)) as (s1 & A1 & A2 & A3 & A4). rewrite !hide_nil in A4.
    destruct (get_typed G' s1 [] x t anon (say w o) A2 (hidden_nil _) Ht) as (l1 & _ & T1 & G2). rewrite hide_nil in G2.
    destruct (set_typed G' s1 [] x t v anon (say w o) A2 (hidden_nil _) Ht A3) as (S1 & S2 & S3). rewrite !hide_nil in S1.
    exists (supd s1 x v), (oscopes (supd s1 x v)). split; [by rewrite S2, A1|]. split; [done|]. split; [done|]. split; [done|].
    eapply runs_assign; [exact G1|exact A4|exact G2| |exact S1]. eapply assign_takes; [by eapply takes_obj|exact A3].
  - intros ρ x op k op' a u w0 v ρ' o Hop Hu _ IH Hc r b G q G' Hx scs w Fi Hρ.
    inversion Hx as [| | |? ? ? ? t e Ht He|? ? ? ? k0 op0 ? t u0 e Hop' Ht He Ho| | | | | | | | | | | | | |]; subst; [discriminate Hop|].
    assert (k0 = k) as -> by congruence. assert (op0 = op') as -> by congruence.
    destruct (get_typed G' scs [] x t anon w Fi (hidden_nil _) Ht) as (l0 & L1 & L2 & G1). rewrite hide_nil in G1. assert (l0 = u) as -> by congruence.
    destruct (IH _ _ _ He scs [] anon anon w Fi (hidden_nil _) eq_refl (takes_anon _)) as (s1 & A1 & A2 & A3 & A4). rewrite !hide_nil in A4.
    assert (Hk : (k = 0 \/ k = 1)%nat) by (destruct op; try discriminate Hop; injection Hop as <- _; auto).
    destruct (arithmetic P k op' t u0 t u w0 Hk Ho L2 A3) as [(v' & C1 & C2 & C3)|[_ N]]; [|by destruct (N v)].
    pose proof (combine_unique _ _ _ _ _ Hc C1) as ->.
    destruct (get_typed G' s1 [] x t anon (say w o) A2 (hidden_nil _) Ht) as (l1 & _ & T1 & G2). rewrite hide_nil in G2.
    destruct (set_typed G' s1 [] x t v' anon (say w o) A2 (hidden_nil _) Ht C2) as (S1 & S2 & S3). rewrite !hide_nil in S1.
    exists (supd s1 x v'), (oscopes (supd s1 x v')). split; [by rewrite S2, A1|]. split; [done|]. split; [done|]. split; [done|].
    eapply runs_assign; [exact G1| |exact G2| |exact S1].
    + eapply ev_bin; [by apply ev_var|exact A4|exact C3|]. eapply assign_takes; [by apply takes_anon|exact C2].
    + eapply assign_takes; [by eapply takes_obj|exact C2].
  - (* declarations *)
    intros ρ d t Hd r b G q G' Hx scs w Fi ->. inversion Hx as [| | | | |? ? ? x t' ? Hw Hi| | | | | | | | | | | | |]; subst.
    cbn [nt_type nt_name] in *. assert (t' = t) as -> by congruence.
    destruct (fits_introduce G scs x t (default t) G' Fi Hi (default_type _)) as (s & r' & -> & F1 & N1).
    exists (((x, default t) :: s) :: r'), (oscopes (((x, default t) :: s) :: r')). rewrite say_nil. repeat (split; [done|]). apply runs_decl. rewrite (named_default _ _ Hd). by apply declare_ctx.
  - intros ρ d t e v ρ' o Hd _ IH r b G q G' Hx scs w Fi Hρ. inversion Hx as [| | | | | |? ? ? x t' ? ? e' Hw Hi He| | | | | | | | | | | |]; subst.
    cbn [nt_type nt_name] in *. assert (t' = t) as -> by congruence.
    destruct (fits_introduce G scs x t (default t) G' Fi Hi (default_type _)) as (s & r' & -> & F1 & N1).
    destruct (IH _ _ _ He (((x, default t) :: s) :: r') [] anon anon w F1 (hidden_nil _) eq_refl (takes_anon _)) as (s1 & A1 & A2 & A3 & A4). rewrite !hide_nil in A4.
    destruct (set_typed G' s1 [] x t v anon (say w o) A2 (hidden_nil _) (introduce_own _ _ _ _ Hi) A3) as (S1 & S2 & S3). rewrite !hide_nil in S1.
    exists (supd s1 x v), (oscopes (supd s1 x v)). split; [by rewrite S2, A1|]. split; [done|]. split; [done|]. split; [done|].
    eapply runs_decl_init; [|exact A4| |exact S1].
    + rewrite (named_default _ _ Hd). by apply declare_ctx.
    + rewrite (named_default _ _ Hd). eapply assign_takes; [|exact A3]; apply takes_obj, default_type.
  - (* var *)
    intros ρ x m0 a0 e v ρ' o _ IH r b G q G' Hx scs w Fi Hρ. inversion Hx as [| | | | | | |? ? ? t ? ? e' Hn He Hi| | | | | | | | | | |]; subst.
    destruct (fits_introduce G scs x t (default t) G' Fi Hi (default_type _)) as (s & r' & -> & F1 & N1).
    assert (Hh : hidden [(x, default t)] G). { intros y Hy. cbn [assoc]. case_bool_decide; [by subst y|done]. }
    destruct (IH _ _ _ He (s :: r') [(x, default t)] anon anon w Fi Hh eq_refl (takes_anon _)) as (s1 & A1 & A2 & A3 & A4).
    destruct (fits_introduce G s1 x t v G' A2 Hi A3) as (s2 & r2 & -> & F2 & N2). rewrite !hide_one in A4.
    exists (((x, v) :: s2) :: r2), (oscopes (((x, v) :: s2) :: r2)). split; [by rewrite A1|]. split; [done|]. split; [done|]. split; [done|].
    eapply runs_decl_init; [|exact A4| |].
    + rewrite obj_default. by apply declare_ctx.
    + rewrite obj_default. eapply assign_takes; [|exact A3]; apply takes_obj, default_type.
    + unfold ctx_set, cx. cbn [x_env oscopes map oscope fst snd env_set sc_get sc_set x_ret x_world ending_of rv_of]. rewrite str_eqb_refl. done.
  - (* assert *)
    intros ρ e m0 ρ' o _ IH r b G q G' Hx scs w Fi Hρ. inversion Hx as [| | | | | | | |? ? ? e' He| | | | | | | | | |]; subst.
    destruct (IH _ _ _ He scs [] anon anon w Fi (hidden_nil _) eq_refl (takes_anon _)) as (s1 & A1 & A2 & A3 & A4). rewrite !hide_nil in A4.
    exists s1, (oscopes s1). repeat (split; [done|]). eapply runs_assert; [exact A4|done].
  - intros ρ r b G q G' Hx scs w Fi ->. inversion Hx; subst. exists scs, (oscopes scs). rewrite say_nil. repeat (split; [done|]). constructor.
  - intros ρ r b G q G' Hx scs w Fi ->. inversion Hx; subst. exists scs, (oscopes scs). rewrite say_nil. repeat (split; [done|]). constructor.
  - (* print *)
    intros ρ e v ρ' o _ IH r b G q G' Hx scs w Fi Hρ. inversion Hx as [| | | | | | | | | | |? ? ? t e' He| | | | | | |]; subst.
    destruct (IH _ _ _ He scs [] anon anon w Fi (hidden_nil _) eq_refl (takes_anon _)) as (s1 & A1 & A2 & A3 & A4). rewrite !hide_nil in A4.
    exists s1, (oscopes s1). repeat (split; [done|]). pose proof (runs_print P Leaky _ _ _ _ A4) as R. rewrite show_obj in R. rewrite <- say_say. exact R.
  - intros ρ r b G q G' Hx scs w Fi ->. inversion Hx; subst. exists scs, (oscopes scs). rewrite say_nil. repeat (split; [done|]). constructor.
  - intros ρ e v ρ' o _ IH r b G q G' Hx scs w Fi Hρ. inversion Hx as [| | | | | | | | | | | | |? ? ? t e' Hr He| | | | |]; subst.
    destruct (IH _ _ _ He scs [] anon anon w Fi (hidden_nil _) eq_refl (takes_anon _)) as (s1 & A1 & A2 & A3 & A4). rewrite !hide_nil in A4.
    exists s1, (oscopes s1). repeat (split; [done|]). eapply (runs_return P Leaky _ _ _ (obj_of v)) in A4; [exact A4|]. eapply assign_takes; [by apply takes_anon|exact A3].
  - (* if *)
    intros ρ c a s k ρ1 ρ2 o o' _ IHc _ IHa r b G q G' Hx scs w Fi Hρ.
    inversion Hx as [| | | | | | | | | | | | | |? ? ? ? c' qa Hc Ha|? ? ? ? ? c' qa qs Hc Ha Hs| | |]; subst.
    + destruct (IHc _ _ _ Hc scs [] anon anon w Fi (hidden_nil _) eq_refl (takes_anon _)) as (s1 & A1 & A2 & A3 & A4). rewrite !hide_nil in A4.
      destruct (IHa _ _ _ _ _ Ha s1 (say w o) A2 A1) as (s2 & Z & B1 & B2 & B3 & BL & B4). rewrite say_say in B4. exists s2, Z. repeat (split; [done|]).
      eapply runs_if; [exact A4|exact B4].
    + destruct (IHc _ _ _ Hc scs [] anon anon w Fi (hidden_nil _) eq_refl (takes_anon _)) as (s1 & A1 & A2 & A3 & A4). rewrite !hide_nil in A4.
      destruct (IHa _ _ _ _ _ Ha s1 (say w o) A2 A1) as (s2 & Z & B1 & B2 & B3 & BL & B4). rewrite say_say in B4. exists s2, Z. repeat (split; [done|]).
      eapply runs_if; [exact A4|exact B4].
  - intros ρ c a s k ρ1 ρ2 o o' _ IHc _ IHa r b G q G' Hx scs w Fi Hρ.
    inversion Hx as [| | | | | | | | | | | | | | |? ? ? ? ? c' qa qs Hc Ha Hs| | |]; subst.
    destruct (IHc _ _ _ Hc scs [] anon anon w Fi (hidden_nil _) eq_refl (takes_anon _)) as (s1 & A1 & A2 & A3 & A4). rewrite !hide_nil in A4.
    destruct (IHa _ _ _ _ _ Hs s1 (say w o) A2 A1) as (s2 & Z & B1 & B2 & B3 & BL & B4). rewrite say_say in B4. exists s2, Z. repeat (split; [done|]).
    eapply runs_if; [exact A4|exact B4].
  - intros ρ c a ρ1 o _ IHc r b G q G' Hx scs w Fi Hρ.
    inversion Hx as [| | | | | | | | | | | | | |? ? ? ? c' qa Hc Ha| | | |]; subst.
    destruct (IHc _ _ _ Hc scs [] anon anon w Fi (hidden_nil _) eq_refl (takes_anon _)) as (s1 & A1 & A2 & A3 & A4). rewrite !hide_nil in A4.
    exists s1, (oscopes s1). repeat (split; [done|]). eapply runs_if; [exact A4|constructor].
  - (* while *)
    intros ρ c s k ρ' o _ IH r b G q G' Hx scs w Fi Hρ.
    inversion Hx as [| | | | | | | | | | | | | | | |? ? ? ? c' qs Hc Hs| |]; subst.
    destruct (IH _ _ _ _ _ Hc Hs scs anon w Fi eq_refl (takes_anon _)) as (s1 & Z & A1 & A2 & A3 & AL & A4). exists s1, Z. split; [done|]. split; [done|].
    split; [by destruct k|]. split; [done|]. by apply runs_while.
  - (* for *)
    intros ρ i c u s k ρ1 ρ2 o o' _ IHi _ IHr r b G q G' Hx scs w Fi Hρ.
    inversion Hx as [| | | | | | | | | | | | | | | | |? ? G1 ? ? ? ? qi c' qu qs Hi Hc Hu Hs Si Su Ss|]; subst.
    assert (F0 : fits_env ([] :: G') ([] :: scs)) by (constructor; [constructor|exact Fi]).
    destruct (IHi _ _ _ _ _ Hi ([] :: scs) w F0 eq_refl) as (s1 & Z1 & A1 & A2 & _ & AL & A4). cbn [lands] in AL. subst Z1.
    destruct (IHr _ _ _ _ _ Hc Hs s1 anon (say w o) A2 A1 (takes_anon _) _ Hu Ss) as (s2 & Z & B1 & B2 & B3 & BL & B4). rewrite say_say in B4.
    destruct (low_tail _ _ _ _ _ _ _ Hi) as [T1 T2]. destruct (leave_scope G' G1 scs s2 Fi B2 T1 (T2 ltac:(done))) as [E1 E2].
    destruct k as [| | |v]; try done.
    + cbn [lands] in BL. subst Z. exists (tail s2), (oscopes (tail s2)). split; [by rewrite B1|]. split; [done|]. split; [done|]. split; [done|].
      pose proof (runs_for P Leaky (cx scs anon w) _ _ _ _ _ _ _ A4 B4 ltac:(done)) as B5. by destruct s2.
    + exists (tail s2), Z. split; [by rewrite B1|]. split; [done|]. split; [done|]. split; [done|]. by eapply runs_for_kept.
  - (* blocks *)
    intros ρ l k ρ' o _ IH r b G q G' Hx scs w Fi Hρ.
    inversion Hx as [| | | | | | | | | | | | | | | | | |? ? G1 ? ql Hl]; subst.
    assert (F0 : fits_env ([] :: G') ([] :: scs)) by (constructor; [constructor|exact Fi]).
    destruct (IH _ _ _ _ _ Hl ltac:(done) ([] :: scs) w F0 eq_refl) as (s1 & Z & G2 & A1 & A2 & T1 & T2 & A3 & AL & A4).
    destruct (leave_scope G' G2 scs s1 Fi A2 T1 T2) as [E1 E2].
    exists (tail s1), (tail Z). split; [by rewrite A1|]. split; [done|]. split; [done|]. split; [destruct k; try done; cbn [lands] in AL; subst Z; by destruct s1|].
    change (Ctx (tail Z) (rv_of k) (say w o)) with (ctx_pop (Ctx Z (rv_of k) (say w o))).
    destruct ql as [|q0 ql]; cbn [blk stm].
    + apply runs_nil_inv in A4 as [-> Hg]. rewrite Hg. apply runs_skip.
    + apply (block_scope P Leaky (cx scs anon w)) in A4. by apply runs_block_stmt.
  - (* lists of statements *)
    intros ρ r b G q G' Hx HG scs w Fi ->. inversion Hx; subst. exists scs, (oscopes scs), G'. rewrite say_nil. repeat (split; [done|]). constructor.
  - intros ρ s l k ρ1 ρ2 o o' _ IHs _ IHl r b G q G' Hx HG scs w Fi Hρ. inversion Hx as [|? ? G1 ? ? ? qs ql Hs Hl]; subst.
    destruct (IHs _ _ _ _ _ Hs scs w Fi eq_refl) as (s1 & Z1 & A1 & A2 & A3 & AL & A4). cbn [lands] in AL. subst Z1. destruct (low_tail _ _ _ _ _ _ _ Hs) as [T1 T2].
    destruct (IHl _ _ _ _ _ Hl (T2 HG) s1 (say w o) A2 A1) as (s2 & Z & G2 & B1 & B2 & T3 & T4 & B3 & BL & B4). rewrite say_say in B4.
    exists s2, Z, G2. split; [done|]. split; [done|]. split; [congruence|]. split; [done|]. split; [done|]. split; [done|].
    destruct qs as [qs|]; cbn [add stm] in *; [by eapply list_next|]. apply runs_skip_inv in A4 as [_ Hg]. cbn [rv_of] in Hg. change (Ctx (oscopes s1) anon (say w o)) with (cx s1 anon (say w o)) in Hg. rewrite Hg in B4. exact B4.
  - intros ρ s l k ρ1 o _ IHs Hk r b G q G' Hx HG scs w Fi Hρ. inversion Hx as [|? ? G1 ? ? ? qs ql Hs Hl]; subst.
    destruct (IHs _ _ _ _ _ Hs scs w Fi eq_refl) as (s1 & Z & A1 & A2 & A3 & AL & A4). destruct (low_tail _ _ _ _ _ _ _ Hs) as [T1 T2].
    exists s1, Z, G1. split; [done|]. split; [done|]. split; [done|]. split; [by apply T2|]. split; [done|]. split; [done|].
    destruct qs as [qs|]; cbn [add stm] in *; [apply list_stop; [done|by destruct k]|]. apply runs_skip_inv in A4 as [He _]. by destruct k.
  - (* loops *)
    intros ρ c u s ρ1 o _ IHc r bl G c' qb Hc Hb scs d w Fi Hρ Td.
    subst ρ. destruct (IHc _ _ _ Hc scs [] d anon w Fi (hidden_nil _) eq_refl Td) as (s1 & A1 & A2 & A3 & A4). rewrite !hide_nil in A4.
    destruct u as [u|]; [intros qu Hu Hs|]; exists s1, (oscopes s1); repeat (split; [done|]).
    + eapply Interp_Spec.rounds_end; [exact A4|done].
    + eapply loop_end; [exact A4|done].
  - intros ρ c u s ρ1 ρ2 o o' _ IHc Hd IHb r bl G c' qb Hc Hb scs d w Fi Hρ Td.
    subst ρ. destruct (IHc _ _ _ Hc scs [] d anon w Fi (hidden_nil _) eq_refl Td) as (s1 & A1 & A2 & A3 & A4). rewrite !hide_nil in A4.
    destruct (IHb _ _ _ _ _ Hb s1 (say w o) A2 A1) as (s2 & Z & B1 & B2 & B3 & BL & B4). rewrite say_say in B4.
    destruct u as [u|]; [intros qu Hu Hs|].
    + exfalso. destruct (proj1 (steady_ends M) _ _ _ _ _ Hd true false Hs) as [_ N]. by apply N.
    + exists s2, Z. repeat (split; [done|]). eapply loop_break; [exact A4|done|exact B4].
  - intros ρ c u s v ρ1 ρ2 o o' _ IHc Hd IHb r bl G c' qb Hc Hb scs d w Fi Hρ Td.
    subst ρ. destruct (IHc _ _ _ Hc scs [] d anon w Fi (hidden_nil _) eq_refl Td) as (s1 & A1 & A2 & A3 & A4). rewrite !hide_nil in A4.
    destruct (IHb _ _ _ _ _ Hb s1 (say w o) A2 A1) as (s2 & Z & B1 & B2 & B3 & BL & B4). rewrite say_say in B4.
    destruct u as [u|]; [intros qu Hu Hs|].
    + exists s2, Z. repeat (split; [done|]). eapply rounds_kept; [done|by eapply cond_some; [exact A4|]|exact B4].
    + exists s2, Z. repeat (split; [done|]). eapply loop_leave; [exact A4|done|exact B4|by left].
  - intros ρ c s k k' ρ1 ρ2 ρ3 o1 o2 o3 _ IHc _ IHb Hk _ IHr r bl G c' qb Hc Hb scs d w Fi Hρ Td.
    subst ρ. destruct (IHc _ _ _ Hc scs [] d anon w Fi (hidden_nil _) eq_refl Td) as (s1 & A1 & A2 & A3 & A4). rewrite !hide_nil in A4.
    destruct (IHb _ _ _ _ _ Hb s1 (say w o1) A2 A1) as (s2 & Z & B1 & B2 & B3 & BL & B4). rewrite say_say in B4.
    assert (Z = oscopes s2) as -> by (by destruct Hk as [->| ->]).
    assert (Hrv : rv_of k = anon) by (by destruct Hk as [->| ->]). rewrite Hrv in B4.
    destruct (IHr _ _ _ _ _ Hc Hb s2 (obj_of (VBool true)) (say w (o1 ++ o2)) B2 B1 (takes_obj (VBool true) TBool I)) as (s3 & Z & C1 & C2 & C3 & CL & C4). rewrite say_say in C4.
    exists s3, Z. repeat (split; [done|]). rewrite app_assoc. eapply loop_again; [exact A4|done|exact B4| |exact C4]. destruct Hk as [->| ->]; auto.
  - intros ρ c u s k k' ρ1 ρ2 ρ3 ρ4 o1 o2 o3 o4 _ IHc _ IHb Hk _ IHu _ IHr r bl G c' qb Hc Hb scs d w Fi Hρ Td qu Hu Hs.
    subst ρ. destruct (IHc _ _ _ Hc scs [] d anon w Fi (hidden_nil _) eq_refl Td) as (s1 & A1 & A2 & A3 & A4). rewrite !hide_nil in A4.
    destruct (IHb _ _ _ _ _ Hb s1 (say w o1) A2 A1) as (s2 & Z & B1 & B2 & B3 & BL & B4). rewrite say_say in B4.
    assert (Z = oscopes s2) as -> by (by destruct Hk as [->| ->]).
    assert (Hrv : rv_of k = anon) by (by destruct Hk as [->| ->]). rewrite Hrv in B4.
    destruct (IHu _ _ _ _ _ Hu s2 (say w (o1 ++ o2)) B2 B1) as (s3 & Z & C1 & C2 & C3 & CL & C4). cbn [lands] in CL. subst Z. rewrite say_say in C4.
    destruct (IHr _ _ _ _ _ Hc Hb s3 (obj_of (VBool true)) (say w ((o1 ++ o2) ++ o3)) C2 C1 (takes_obj (VBool true) TBool I) _ Hu Hs) as (s4 & Z & D1 & D2 & D3 & DL & D4). rewrite say_say in D4.
    exists s4, Z. repeat (split; [done|]). rewrite !app_assoc.
    eapply rounds_again; [by eapply cond_some; [exact A4|]|exact B4| |exact C4|exact D4]. destruct Hk as [->| ->]; auto.
Qed.
End Fwd.
