(** Objects, overriding and the set of ancestors. *)
From stdpp Require Import relations.
From Coq Require Import Sorting.Sorted.
From Verif Require Import Base Base_Proofs Scope_Model Proto_Model Inherit_Model Inherit_Spec Inherit_Proofs Inherit_Proofs2.

(** ** Objects *)
Lemma instance_of_eq ty inh u : instance_of (RObj ty inh) u = true <-> u <> [] /\ (ty = u \/ exists o, o ∈ inh /\ instance_of o u = true).
Proof.
  cbn [instance_of]. destruct u as [|c u]; [naive_solver|]. destruct (str_eqb ty (c :: u)) eqn:E.
  - apply bool_decide_eq_true in E. naive_solver.
  - apply bool_decide_eq_false in E. rewrite existsb_exists. setoid_rewrite <- elem_of_list_In. naive_solver.
Qed.

(** The objects of the loop are those of the extended and implemented types. *)
Lemma create_loop_ok rec w l : forall names os, create_loop rec w l names = Ok os ->
  (forall o, o ∈ os -> exists a, a ∈ l /\ (a_type a = AExtends /\ rec (parent_name a) = Ok o \/ a_type a = AImplements /\ o = RObj (parent_name a) [])) /\
  (forall a, a ∈ l -> a_type a = AExtends -> exists o, o ∈ os /\ rec (parent_name a) = Ok o) /\
  (forall a, a ∈ l -> a_type a = AImplements -> RObj (parent_name a) [] ∈ os).
Proof.
  induction l as [|a l IH]; intros names os H; cbn [create_loop] in H; [simplify_eq; set_solver|].
  destruct (w !! a_name a); [|done]. destruct (a_type a) eqn:T; [done|..].
  - apply rbind_ok in H as (o & H1 & H). destruct (existsb _ _); [done|]. apply rbind_ok in H as (os' & H2 & H). simplify_eq.
    apply IH in H2 as (A & B & C). split; [|split].
    + intros x X. apply elem_of_cons in X as [->|X]; [exists a; split; [set_solver|tauto]|]. destruct (A x X) as (a' & P & Q). exists a'. split; [set_solver|done].
    + intros x X Y. apply elem_of_cons in X as [->|X]; [exists o; split; [set_solver|done]|]. destruct (B x X Y) as (o' & P & Q). exists o'. split; [set_solver|done].
    + intros x X Y. apply elem_of_cons in X as [->|X]; [congruence|]. specialize (C x X Y). set_solver.
  - apply IH in H as (A & B & C). split; [|split].
    + intros x X. destruct (A x X) as (a' & P & Q). exists a'. split; [set_solver|done].
    + intros x X Y. apply elem_of_cons in X as [->|X]; [congruence|]. by apply B.
    + intros x X Y. apply elem_of_cons in X as [->|X]; [congruence|]. by apply C.
  - destruct (existsb _ _); [done|]. apply rbind_ok in H as (os' & H2 & H). simplify_eq.
    apply IH in H2 as (A & B & C). split; [|split].
    + intros x X. apply elem_of_cons in X as [->|X]; [exists a; split; [set_solver|tauto]|]. destruct (A x X) as (a' & P & Q). exists a'. split; [set_solver|done].
    + intros x X Y. apply elem_of_cons in X as [->|X]; [congruence|]. destruct (B x X Y) as (o' & P & Q). exists o'. split; [set_solver|done].
    + intros x X Y. apply elem_of_cons in X as [->|X]; [set_solver|]. specialize (C x X Y). set_solver.
  - apply IH in H as (A & B & C). split; [|split].
    + intros x X. destruct (A x X) as (a' & P & Q). exists a'. split; [set_solver|done].
    + intros x X Y. apply elem_of_cons in X as [->|X]; [congruence|]. by apply B.
    + intros x X Y. apply elem_of_cons in X as [->|X]; [congruence|]. by apply C.
Qed.

Lemma instance_of_created n w : forall t o u, create n w t = Ok o ->
  instance_of o u = true <-> u <> [] /\ exists m, rtc (extends w) t m /\ (m = u \/ implements w m u).
Proof.
  induction n as [|n IH]; intros t o u H; [done|]. cbn [create] in H. destruct (w !! t) as [b|] eqn:Eb; [|done].
  apply rbind_ok in H as (os & H & X). simplify_eq. apply create_loop_ok in H as (A & B & C). rewrite instance_of_eq. split.
  - intros [NE [->|(o & O1 & O2)]]; (split; [done|]); [exists u; split; [apply rtc_refl|tauto]|].
    destruct (A o O1) as (a & Ain & [(T & R)|(T & ->)]).
    + destruct (proj1 (IH _ _ u R) O2) as (_ & m & M1 & M2). exists m. split; [|done].
      eapply rtc_l; [|exact M1]. exists b, a. done.
    + apply instance_of_eq in O2 as (_ & [E|(o' & O & _)]); [|set_solver]. exists t. split; [apply rtc_refl|]. right. exists b, a. done.
  - intros (NE & m & M1 & M2). split; [done|]. destruct (rtc_inv _ _ M1) as [<-|(y & S1 & S2)].
    + destruct M2 as [->|(b' & a & P & Q & R & E)]; [tauto|]. assert (b' = b) as -> by congruence. right. exists (RObj (parent_name a) []). split; [by apply C|].
      apply instance_of_eq. tauto.
    + destruct S1 as (b' & a & P & Q & R & <-). assert (b' = b) as -> by congruence. right. destruct (B a Q R) as (o & O1 & O2). exists o. split; [done|].
      apply (IH _ _ u O2). split; [done|]. exists m. done.
Qed.

Lemma create_type n w t o : create n w t = Ok o -> exists os, o = RObj t os.
Proof. destruct n as [|n]; [done|]. cbn [create]. destruct (w !! t); [|done]. intros H. apply rbind_ok in H as (os & _ & H). simplify_eq. eauto. Qed.

(** Creation succeeds. *)
Lemma create_loop_total rec w l : forall names,
  (forall a, a ∈ l -> is_Some (w !! a_name a)) -> (forall a, a ∈ l -> a_type a <> AUnknown) ->
  (forall a, a ∈ l -> a_type a = AExtends -> exists o, rec (parent_name a) = Ok o) ->
  NoDup (map a_name (List.filter (fun a => match a_type a with AImplements => true | _ => false end) l)) ->
  (forall a, a ∈ l -> a_type a = AImplements -> $"__" ++ a_name a ++ $"__" ∉ names) ->
  (length (List.filter is_extends l) <= 1)%nat -> (base_name ∈ names -> List.filter is_extends l = []) ->
  exists os, create_loop rec w l names = Ok os.
Proof.
  induction l as [|a l IH]; intros names K U R ND NI LE NB; cbn [create_loop]; [eauto|].
  destruct (K a) as [p ->]; [set_solver|]. cbn [List.filter] in *.
  assert (forall s : str, $"__" ++ s ++ $"__" <> base_name) as DIFF by done.
  destruct (a_type a) eqn:T; unfold is_extends in LE, NB; rewrite T in *; fold is_extends in LE, NB.
  - exfalso. apply (U a); [set_solver|done].
  - destruct (R a) as (o & ->); [set_solver|done|]. cbn [rbind]. destruct (existsb (str_eqb base_name) names) eqn:X.
    { exfalso. apply existsb_exists in X as (y & Y1 & Y2). apply bool_decide_eq_true in Y2. subst. apply elem_of_list_In in Y1. by apply NB in Y1. }
    cbn [length] in LE. destruct (IH (base_name :: names)) as (os & ->); [set_solver|set_solver|set_solver|done| |lia| |cbn; eauto].
    + intros a' A1 A2 X'. apply elem_of_cons in X' as [X'|X']; [by apply DIFF in X'|]. apply (NI a'); [set_solver|done|done].
    + intros _. destruct (List.filter is_extends l); [done|cbn in LE; lia].
  - apply IH; try done; set_solver.
  - destruct (existsb (str_eqb _) names) eqn:X.
    { exfalso. apply existsb_exists in X as (y & Y1 & Y2). apply bool_decide_eq_true in Y2. subst. apply elem_of_list_In in Y1.
      apply (NI a); [set_solver|done|done]. }
    cbn [map] in ND. inversion ND as [|x y N1 N2]; subst.
    destruct (IH (($"__" ++ a_name a ++ $"__") :: names)) as (os & ->); [set_solver|set_solver|set_solver|done| |done| |cbn; eauto].
    + intros a' A1 A2 X'. apply elem_of_cons in X' as [X'|X'].
      * apply app_inv_head in X'. apply app_inv_tail in X'. apply N1. rewrite <- X'. apply elem_of_list_In, in_map, filter_In.
        split; [by apply elem_of_list_In|by rewrite A2].
      * apply (NI a'); [set_solver|done|done].
    + intros Y. apply NB. apply elem_of_cons in Y as [Y|Y]; [|done]. symmetry in Y. by apply DIFF in Y.
  - apply IH; try done; set_solver.
Qed.

Definition implemented_names (b : bp) : list str :=
  map a_name (List.filter (fun a => match a_type a with AImplements => true | _ => false end) (b_inh b)).

Lemma create_total w : acyclic w -> all_known w -> (forall t b a, w !! t = Some b -> a ∈ b_inh b -> is_Some (w !! a_name a)) ->
  (forall t b, w !! t = Some b -> (length (List.filter is_extends (b_inh b)) <= 1)%nat /\ (forall a, a ∈ b_inh b -> a_type a <> AUnknown) /\
     NoDup (implemented_names b)) ->
  forall n stack t, NoDup stack -> (forall s, s ∈ stack -> is_Some (w !! s) /\ ~ rtc (inherits w) t s) -> is_Some (w !! t) ->
  (size w <= n + length stack)%nat -> exists o, create n w t = Ok o.
Proof.
  intros AC AK AN WF. induction n as [|n IH]; intros stack t N D T L.
  - exfalso. assert (length stack < size w)%nat; [|lia]. apply (stack_bound w t); [done| |done|].
    + intros s Hs. by apply D.
    + intros X. apply D in X as [_ X]. apply X, rtc_refl.
  - cbn [create]. destruct T as [b Eb]. rewrite Eb. destruct (WF _ _ Eb) as (W1 & W2 & W3).
    destruct (create_loop_total (create n w) w (b_inh b) []) as (os & ->); [|done| |done|set_solver|done|set_solver|cbn; eauto].
    + intros a Ha. by apply (AN t b).
    + intros a Ha _. assert (inherits w t (parent_name a)) as TA by (by apply (inherits_self _ _ b)).
      apply (IH (t :: stack)).
      * constructor; [|done]. intros X. apply D in X as [_ X]. apply X, rtc_refl.
      * intros s Hs. apply elem_of_cons in Hs as [->|Hs].
        -- split; [eauto|]. intros X. apply (AC t). eapply tc_rtc_r; [by apply tc_once|done].
        -- split; [by apply D|]. intros X. apply D in Hs as [_ Hs]. apply Hs. by eapply rtc_l.
      * by apply (AK t b).
      * cbn [length]. lia.
Qed.

Lemma everything_is_object n w : (forall t b, w !! t = Some b -> t <> object_name -> existsb is_extends (b_inh b) = true) ->
  forall t o, create n w t = Ok o -> rtc (extends w) t object_name.
Proof.
  intros X. induction n as [|n IH]; intros t o H; [done|]. destruct (decide (t = object_name)) as [->|N]; [apply rtc_refl|].
  cbn [create] in H. destruct (w !! t) as [b|] eqn:Eb; [|done]. apply rbind_ok in H as (os & H & _).
  apply create_loop_ok in H as (_ & B & _). specialize (X _ _ Eb N). apply existsb_exists in X as (a & A1 & A2).
  apply elem_of_list_In in A1. assert (a_type a = AExtends) as T by (unfold is_extends in A2; by destruct (a_type a)).
  destruct (B a A1 T) as (o' & _ & R). eapply rtc_l; [|by eapply IH]. exists b, a. done.
Qed.

(** ** Overriding *)
Lemma override_check_iff old new : override_check old new = Ok tt <-> may_override old new.
Proof.
  unfold override_check, may_override.
  assert (negb (is_abstract old) && negb (is_virtual old) = false <-> overridable old) as A.
  { unfold overridable, is_abstract, is_virtual. destruct (bm_layout old); cbn; split; intros; try done; try tauto; by destruct H. }
  assert (is_method new && negb (is_abstract new) && negb (is_override new) = false <->
          (bm_kind new = MMethod -> bm_layout new = LOverride \/ bm_layout new = LAbstract)) as B.
  { unfold is_method, is_abstract, is_override. destruct (bm_kind new), (bm_layout new); cbn; split; intros H; try done; try tauto;
      try (intros _; tauto); by destruct (H eq_refl). }
  destruct (negb (is_abstract old) && negb (is_virtual old)).
  { split; [done|]. intros [X _]. apply A in X. done. }
  destruct (is_method new && _ && _).
  { split; [done|]. intros (_ & X & _). apply B in X. done. }
  destruct (eqb_spec (bm_retconst old) (bm_retconst new)) as [C|C]; cbn [negb]; [|split; [done|intros (_ & _ & _ & X & _); done]].
  destruct (eqb_spec (bm_const old) (bm_const new)) as [D|D]; cbn [negb]; [|split; [done|intros (_ & _ & _ & _ & X); done]].
  assert (overridable old) as O by (by apply A).
  assert (is_final old = false /\ is_static old = false) as [-> ->].
  { unfold is_final, is_static. by destruct O as [-> | ->]. }
  unfold str_eqb. destruct (bool_decide_reflect (bm_ret old = bm_ret new)) as [E|E]; cbn [negb].
  - split; [|done]. intros _. split; [done|]. split; [by apply B|]. done.
  - split; [done|]. intros (_ & _ & X & _). done.
Qed.
Lemma accepts_iff m name sig : accepts name sig m = true <-> answers m name sig.
Proof. unfold accepts, answers. rewrite andb_true_iff. unfold str_eqb. by rewrite bool_decide_eq_true. Qed.
Lemma find_method_some l n s m : find_method l n s = Some m -> m ∈ l /\ answers m n s.
Proof. intros H. apply find_some in H as [A B]. split; [by apply elem_of_list_In|]. by apply accepts_iff. Qed.
Lemma find_method_none l n s : find_method l n s = None -> forall m, m ∈ l -> ~ answers m n s.
Proof. intros H m Hm A. apply accepts_iff in A. apply elem_of_list_In in Hm. apply (find_none _ _ H) in Hm. congruence. Qed.
Lemma find_method_none_iff l n s : find_method l n s = None <-> forall m, m ∈ l -> ~ answers m n s.
Proof.
  split; [apply find_method_none|]. intros H. destruct (find_method l n s) as [m|] eqn:E; [|done].
  apply find_method_some in E as [A B]. by apply H in A.
Qed.

Definition ptr (m : bmethod) : N := m_ptr (bm m).
Lemma meth_insert_elem l m x : (forall y, y ∈ l -> ptr y <> ptr m) -> x ∈ meth_insert l m <-> x = m \/ x ∈ l.
Proof.
  induction l as [|y l IH]; intros D; cbn [meth_insert]; [rewrite elem_of_list_singleton, elem_of_nil; tauto|]. fold (ptr m) (ptr y).
  destruct (N.ltb_spec (ptr m) (ptr y)); [rewrite elem_of_cons; tauto|]. destruct (N.ltb_spec (ptr y) (ptr m)).
  - rewrite !elem_of_cons, IH; [tauto|]. intros z Z. apply D. apply elem_of_cons. tauto.
  - exfalso. apply (D y); [apply elem_of_cons; tauto|lia].
Qed.
Lemma meth_erase_elem l m x : x ∈ meth_erase l m <-> x ∈ l /\ ptr x <> ptr m.
Proof.
  unfold meth_erase. rewrite elem_of_list_In, filter_In, negb_true_iff, N.eqb_neq, <- elem_of_list_In. done.
Qed.

Lemma scope_define_ok b m b' : scope_define b m = Ok b' ->
  b_meths b' = meth_insert (b_meths b) m /\ b_emeths b' = b_emeths b /\ (forall x, x ∈ b_meths b -> ~ collides x m).
Proof.
  unfold scope_define. destruct (find_method _ _ _) eqn:E; [done|]. intros ?; simplify_eq. split; [done|]. split; [done|].
  intros x X. apply (find_method_none _ _ _ E). set_solver.
Qed.

Lemma define_method_cases b m b' : b_emeths b = [] -> define_method b m = Ok b' ->
  b_emeths b' = [] /\
  ((b_meths b' = meth_insert (b_meths b) m /\ forall x, x ∈ b_meths b -> ~ collides x m) \/
   exists old, old ∈ b_meths b /\ collides old m /\ may_override old m /\ b_meths b' = meth_insert (meth_erase (b_meths b) old) m /\
     forall x, x ∈ b_meths b -> ptr x <> ptr old -> ~ collides x m).
Proof.
  intros E H. unfold define_method in H. destruct (find_method (b_meths b) _ _) as [old|] eqn:F.
  - apply rbind_ok in H as ([] & H1 & H2). apply override_check_iff in H1. apply find_method_some in F as [F1 F2].
    apply scope_define_ok in H2 as (A & B & C). cbn in A, B, C. split; [congruence|]. right. exists old. split; [done|]. split; [done|].
    split; [done|]. split; [done|]. intros x X Y. apply C. by apply meth_erase_elem.
  - rewrite E in H. cbn [find_method List.find] in H. apply scope_define_ok in H as (A & B & C). split; [congruence|]. left. done.
Qed.

Lemma before_snoc {A} (x y z : A) l : before x y (l ++ [z]) <-> before x y l \/ (y = z /\ x ∈ l).
Proof.
  split.
  - intros (a & b & c & E). destruct c as [|c0 c] using rev_ind.
    + right. rewrite app_comm_cons, app_assoc in E. apply app_inj_tail in E as [E ->]. split; [done|]. rewrite E. set_solver.
    + left. clear IHc. rewrite !app_comm_cons, !app_assoc in E. apply app_inj_tail in E as [-> _]. exists a, b, c.
      by rewrite <- !app_assoc, <- !app_comm_cons.
  - intros [H|[-> H]]; [by apply before_app|by apply before_last].
Qed.

Lemma before_in {A} (x y : A) l : before x y l -> x ∈ l /\ y ∈ l.
Proof. intros (a & b & c & ->). split; repeat (rewrite ?elem_of_app, ?elem_of_cons); tauto. Qed.

Record JInv (dn : list bmethod) (b : bp) : Prop := {
  j_ext : b_emeths b = [];
  j_in : forall x, x ∈ b_meths b -> x ∈ dn;
  j_gone : forall x, x ∈ dn -> x ∈ b_meths b \/ exists y, before x y dn /\ collides x y /\ may_override x y;
  j_clear : forall x y, x ∈ b_meths b -> y ∈ b_meths b -> before x y dn -> ~ collides x y;
  j_contract : forall x y, before x y dn -> collides x y -> exists z, (z = y \/ before z y dn) /\ before x z dn /\ collides x z /\ may_override x z }.

Lemma define_methods_inv ms : forall dn b b', NoDup (map ptr (dn ++ ms)) -> JInv dn b -> define_methods b ms = Ok b' -> JInv (dn ++ ms) b'.
Proof.
  induction ms as [|m ms IH]; intros dn b b' ND J H; cbn [define_methods] in H; [simplify_eq; by rewrite app_nil_r|].
  apply rbind_ok in H as (b1 & H1 & H2). destruct (define_method_cases b m b1 (j_ext _ _ J) H1) as (E1 & C).
  assert (forall x, x ∈ dn -> ptr x <> ptr m) as PD.
  { intros x X E. rewrite map_app in ND. apply NoDup_app in ND as (_ & ND & _). apply (ND (ptr x)).
    - apply elem_of_list_In. apply in_map. by apply elem_of_list_In.
    - rewrite E. cbn [map]. set_solver. }
  assert (m ∉ dn) as ND' by (intros X; by apply (PD m X)).
  assert (forall x y, x ∈ dn -> y ∈ dn -> ptr x = ptr y -> x = y) as INJ.
  { intros x y X Y E. rewrite map_app in ND. apply NoDup_app in ND as (ND & _ & _). 
    clear - ND X Y E. induction dn as [|z dn IHd]; [set_solver|]. cbn [map] in ND. inversion ND as [|? ? N1 N2]; subst.
    apply elem_of_cons in X, Y. destruct X as [->|X], Y as [->|Y]; [done|..].
    - exfalso. apply N1. rewrite E. apply elem_of_list_In, in_map. by apply elem_of_list_In.
    - exfalso. apply N1. rewrite <- E. apply elem_of_list_In, in_map. by apply elem_of_list_In.
    - by apply IHd. }
  rewrite (cons_middle m dn ms), app_assoc in *. apply (IH (dn ++ [m]) b1 b'); [done| |done].
  assert (forall x, x ∈ b_meths b1 <-> x = m \/ (x ∈ b_meths b /\ ~ (collides x m))) as MEM.
  { intros x. destruct C as [(-> & C)|(old & O1 & O2 & O3 & -> & C)].
    - rewrite meth_insert_elem; [set_solver|]. intros y Y. apply PD. by apply (j_in _ _ J).
    - rewrite meth_insert_elem, meth_erase_elem.
      2:{ intros y Y. apply meth_erase_elem in Y as [Y _]. apply PD. by apply (j_in _ _ J). }
      split; (intros [X|[X Y]]; [tauto|]).
      + right. split; [done|]. by apply C.
      + right. split; [done|]. intros E. apply Y. assert (x = old) as ->; [|done]. apply INJ; [by apply (j_in _ _ J)..|done]. }
  assert (forall x, x ∈ b_meths b -> collides x m -> may_override x m) as OV.
  { intros x X Y. destruct C as [(_ & C)|(old & O1 & O2 & O3 & _ & C)]; [by apply C in X|].
    assert (x = old) as ->; [|done]. destruct (decide (ptr x = ptr old)) as [E|E]; [|by apply C in E].
    apply INJ; [by apply (j_in _ _ J)..|done]. }
  assert (forall x, collides x m \/ ~ collides x m) as DC.
  { intros x. destruct (accepts (m_name (bm m)) (m_sig (bm m)) x) eqn:A; [left; by apply accepts_iff|]. right. intros B.
    apply accepts_iff in B. congruence. }
  split.
  - done.
  - intros x X. apply MEM in X as [->|[X _]]; [set_solver|]. apply (j_in _ _ J) in X. set_solver.
  - intros x X. apply elem_of_app in X as [X|X].
    + destruct (j_gone _ _ J x X) as [G|(y & G1 & G2 & G3)].
      * destruct (DC x) as [Y|Y]; [|left; apply MEM; tauto]. right. exists m. split; [apply before_snoc; tauto|]. split; [done|]. by apply OV.
      * right. exists y. split; [apply before_snoc; tauto|done].
    + apply elem_of_list_singleton in X as ->. left. apply MEM. tauto.
  - intros x y X Y B. apply before_snoc in B as [B|[-> B]].
    + apply MEM in X as [->|[X _]].
      { exfalso. by apply before_in in B as [B _]. }
      apply MEM in Y as [->|[Y _]].
      { exfalso. by apply before_in in B as [_ B]. }
      by apply (j_clear _ _ J).
    + apply MEM in X as [->|[_ X]]; [done|done].
  - intros x y B CX. apply before_snoc in B as [B|[-> B]].
    + destruct (j_contract _ _ J x y B CX) as (z & Z1 & Z2 & Z3). exists z. split; [|split; [apply before_snoc; tauto|done]].
      destruct Z1 as [->|Z1]; [tauto|]. right. apply before_snoc. tauto.
    + destruct (j_gone _ _ J x B) as [G|(z & G1 & G2 & G3)].
      * exists m. split; [tauto|]. split; [apply before_snoc; tauto|]. split; [done|]. by apply OV.
      * exists z. split; [right; apply before_snoc; right; split; [done|]|].
        { by apply before_in in G1 as [_ G1]. }
        split; [apply before_snoc; tauto|done].
Qed.

(** ** The set of ancestors *)
Definition anc_lt (a b : ancestor) : Prop := anc_less a b = true.
Lemma anc_less_key a b : anc_key a <> anc_key b -> anc_less a b =
  ((anc_num (a_type a) <? anc_num (a_type b))%nat ||
   ((anc_num (a_type a) =? anc_num (a_type b))%nat &&
     (str_ltb (a_name a) (a_name b) || (str_eqb (a_name a) (a_name b) && (vis_num (a_vis a) <? vis_num (a_vis b))%nat)))).
Proof.
  intros N. unfold anc_less. destruct (Nat.eqb_spec (anc_num (a_type a)) (anc_num (a_type b))) as [E1|E1].
  - rewrite E1, Nat.ltb_irrefl. cbn [orb andb]. destruct (str_eqb (a_name a) (a_name b)) eqn:E2.
    + apply bool_decide_eq_true in E2. rewrite E2, str_ltb_irrefl. cbn [orb andb].
      destruct (Nat.eqb_spec (vis_num (a_vis a)) (vis_num (a_vis b))) as [E3|E3]; [|done]. exfalso. apply N. unfold anc_key. by rewrite E1, E2, E3.
    + by rewrite orb_false_r.
  - by rewrite orb_false_r.
Qed.
Lemma anc_less_total a b : anc_key a <> anc_key b -> anc_less a b = negb (anc_less b a).
Proof.
  intros N. rewrite (anc_less_key a b) by done. rewrite (anc_less_key b a) by done. unfold str_eqb.
  destruct (Nat.ltb_spec (anc_num (a_type a)) (anc_num (a_type b))), (Nat.ltb_spec (anc_num (a_type b)) (anc_num (a_type a))),
    (Nat.eqb_spec (anc_num (a_type a)) (anc_num (a_type b))), (Nat.eqb_spec (anc_num (a_type b)) (anc_num (a_type a))); try lia; cbn [orb andb negb]; try done.
  destruct (str_ltb (a_name a) (a_name b)) eqn:E1.
  - apply str_ltb_asym in E1 as E2. rewrite E2. cbn [orb]. destruct (bool_decide (a_name b = a_name a)) eqn:E3; [|done].
    apply bool_decide_eq_true in E3. rewrite E3, str_ltb_irrefl in E1. done.
  - destruct (str_ltb (a_name b) (a_name a)) eqn:E2.
    + cbn [orb]. destruct (bool_decide (a_name a = a_name b)) eqn:E3; [|done].
      apply bool_decide_eq_true in E3. rewrite E3, str_ltb_irrefl in E2. done.
    + pose proof (str_ltb_total _ _ E1 E2) as E3. cbn [orb]. rewrite !bool_decide_eq_true_2 by done. cbn [andb].
      destruct (Nat.ltb_spec (vis_num (a_vis a)) (vis_num (a_vis b))), (Nat.ltb_spec (vis_num (a_vis b)) (vis_num (a_vis a))); try lia; try done.
      exfalso. apply N. unfold anc_key. rewrite E3. assert (vis_num (a_vis a) = vis_num (a_vis b)) as -> by lia. by assert (anc_num (a_type a) = anc_num (a_type b)) as -> by lia.
Qed.
Lemma anc_less_trans a b c : anc_key a <> anc_key b -> anc_key b <> anc_key c -> anc_less a b = true -> anc_less b c = true ->
  anc_less a c = true /\ anc_key a <> anc_key c.
Proof.
  intros N1 N2 H1 H2.
  assert (anc_key a <> anc_key c) as N3.
  { intros E. assert (anc_less b a = anc_less b c) as X.
    { rewrite (anc_less_key b a), (anc_less_key b c) by congruence. unfold anc_key in E. by injection E as -> -> ->. }
    rewrite (anc_less_total a b) in H1 by done. rewrite X, H2 in H1. done. }
  split; [|done]. rewrite anc_less_key in * by done. unfold str_eqb in *.
  destruct (Nat.ltb_spec (anc_num (a_type a)) (anc_num (a_type b))), (Nat.ltb_spec (anc_num (a_type b)) (anc_num (a_type c))),
    (Nat.ltb_spec (anc_num (a_type a)) (anc_num (a_type c))); cbn [orb] in *; try done; try lia.
  all: destruct (Nat.eqb_spec (anc_num (a_type a)) (anc_num (a_type b))), (Nat.eqb_spec (anc_num (a_type b)) (anc_num (a_type c))),
    (Nat.eqb_spec (anc_num (a_type a)) (anc_num (a_type c))); cbn [andb] in *; try done; try lia.
  apply orb_true_iff in H1, H2. apply orb_true_iff. rewrite !andb_true_iff, !bool_decide_eq_true, !Nat.ltb_lt in *.
  destruct H1 as [H1|[H1 H1']], H2 as [H2|[H2 H2']].
  - left. by eapply str_ltb_trans.
  - left. congruence.
  - left. congruence.
  - right. split; [congruence|lia].
Qed.

(** Ancestors of pairwise different keys: the list is ordered, nothing is lost. *)
Definition sorted (l : list ancestor) : Prop := StronglySorted (fun a b => anc_less a b = true) l.
Lemma anc_insert_at_perm k l : forall prev, sorted l -> (forall x, x ∈ l -> anc_key x <> anc_key k) ->
  match prev with None => True | Some p => anc_less p k = true end ->
  Permutation (anc_insert_at prev k l) (k :: l) /\ sorted (anc_insert_at prev k l).
Proof.
  induction l as [|x l IH]; intros prev SO D P; cbn [anc_insert_at].
  - assert (match prev with None => true | Some p => anc_less p k end = true) as -> by (by destruct prev). split; [done|]. repeat constructor.
  - assert (match prev with None => true | Some p => anc_less p k end = true) as -> by (by destruct prev).
    inversion SO as [|? ? S1 S2]; subst. assert (anc_key x <> anc_key k) as DX by (apply D; apply elem_of_cons; tauto).
    assert (forall y, y ∈ l -> anc_key y <> anc_key k) as DL by (intros y Y; apply D; apply elem_of_cons; tauto).
    destruct (anc_less k x) eqn:E.
    + split; [done|]. constructor; [done|]. constructor; [done|]. rewrite Forall_forall in *. intros y Y.
      destruct (decide (anc_key x = anc_key y)) as [K|K].
      * rewrite anc_less_key in * by (intros F; try apply DX; congruence). unfold anc_key in K. by injection K as <- <- <-.
      * eapply (anc_less_trans k x y); [by apply not_eq_sym|done|done|]. by apply S2.
    + assert (anc_less x k = true) as XK. { rewrite anc_less_total by done. by rewrite E. }
      destruct (IH (Some x) S1 DL XK) as (IH1 & IH2). split.
      * rewrite IH1. constructor.
      * constructor; [done|]. rewrite Forall_forall. intros y Y. rewrite IH1 in Y. apply elem_of_cons in Y as [->|Y]; [done|].
        rewrite Forall_forall in S2. by apply S2.
Qed.

Lemma anc_inserts ks : forall l, sorted l -> NoDup (map anc_key (l ++ ks)) ->
  Permutation (fold_left anc_insert ks l) (l ++ ks) /\ sorted (fold_left anc_insert ks l).
Proof.
  induction ks as [|k ks IH]; intros l SO ND; cbn [fold_left]; [by rewrite app_nil_r|].
  assert (forall x, x ∈ l -> anc_key x <> anc_key k) as D.
  { intros x X E. rewrite map_app in ND. apply NoDup_app in ND as (_ & ND & _). apply (ND (anc_key x)).
    - apply elem_of_list_In, in_map. by apply elem_of_list_In.
    - rewrite E. cbn [map]. apply elem_of_cons. tauto. }
  destruct (anc_insert_at_perm k l None SO D I) as (P & SO'). fold (anc_insert l k) in P, SO'.
  destruct (IH (anc_insert l k) SO') as (P2 & S2).
  - assert (map anc_key (anc_insert l k ++ ks) ≡ₚ map anc_key (l ++ k :: ks)) as ->; [|done].
    apply Permutation_map. rewrite P. by rewrite <- Permutation_middle.
  - split; [|done]. rewrite P2, P. by rewrite <- Permutation_middle.
Qed.

Lemma sorted_unique l : forall l', sorted l -> sorted l' -> NoDup (map anc_key l) -> Permutation l l' -> l = l'.
Proof.
  induction l as [|x l IH]; intros l' S1 S2 ND P; [by apply Permutation_nil in P|].
  destruct l' as [|y l']; [by apply Permutation_sym, Permutation_nil in P|].
  inversion S1 as [|? ? A1 A2]; inversion S2 as [|? ? B1 B2]; subst. cbn [map] in ND. inversion ND as [|? ? N1 N2]; subst.
  assert (forall z, z ∈ l -> anc_key z <> anc_key x) as D.
  { intros z Z E. apply N1. rewrite <- E. apply elem_of_list_In, in_map. by apply elem_of_list_In. }
  assert (x = y) as <-.
  { destruct (decide (anc_key x = anc_key y)) as [K|K].
    - assert (y ∈ x :: l) as Y by (rewrite P; apply elem_of_cons; tauto). apply elem_of_cons in Y as [->|Y]; [done|]. exfalso.
      by apply (D y Y).
    - assert (y ∈ x :: l) as Y by (rewrite P; apply elem_of_cons; tauto). apply elem_of_cons in Y as [->|Y]; [done|].
      assert (x ∈ y :: l') as X by (rewrite <- P; apply elem_of_cons; tauto). apply elem_of_cons in X as [->|X]; [done|]. exfalso.
      rewrite Forall_forall in A2, B2. specialize (A2 _ Y). specialize (B2 _ X). rewrite (anc_less_total x y) in A2 by done. by rewrite B2 in A2. }
  f_equal. apply Permutation_cons_inv in P. by apply IH.
Qed.

(** ** Methods taken over *)
Lemma meth_insert_inj l x m : (forall y, y ∈ l -> ptr y = ptr x -> y = x) -> m ∈ meth_insert l x <-> m = x \/ m ∈ l.
Proof.
  induction l as [|y l IH]; intros D; cbn [meth_insert]; [rewrite elem_of_list_singleton, elem_of_nil; tauto|]. fold (ptr x) (ptr y).
  destruct (N.ltb_spec (ptr x) (ptr y)); [rewrite elem_of_cons; tauto|]. destruct (N.ltb_spec (ptr y) (ptr x)).
  - rewrite !elem_of_cons, IH; [tauto|]. intros z Z. apply D. apply elem_of_cons. tauto.
  - rewrite (D y); [rewrite elem_of_cons; tauto|apply elem_of_cons; tauto|lia].
Qed.
Lemma take_methods_elem l : forall es, (forall m m', m ∈ es ++ l -> m' ∈ es ++ l -> ptr m = ptr m' -> m = m') ->
  forall m, m ∈ take_methods es l <-> m ∈ es \/ (m ∈ l /\ vis_geb (m_vis (bm m)) Protected = true).
Proof.
  induction l as [|x l IH]; intros es INJ m; unfold take_methods; cbn [fold_left].
  - rewrite elem_of_nil. tauto.
  - match goal with |- context [fold_left ?f l ?e] => change (fold_left f l e) with (take_methods e l) end.
    assert (forall m, m ∈ meth_insert es x <-> m = x \/ m ∈ es) as MI.
    { intros z. apply meth_insert_inj. intros y Y E. apply INJ; [apply elem_of_app; tauto|rewrite elem_of_app, elem_of_cons; tauto|done]. }
    destruct (vis_geb (m_vis (bm x)) Protected) eqn:V.
    + rewrite IH.
      * rewrite MI, elem_of_cons. split; [intros [[->|Q]|Q]; tauto|intros [Q|[[->|Q] Q2]]; tauto].
      * intros m1 m2 M1 M2. apply INJ; rewrite elem_of_app, elem_of_cons; [rewrite elem_of_app, MI in M1|rewrite elem_of_app, MI in M2]; tauto.
    + rewrite IH.
      * rewrite elem_of_cons. split; [tauto|]. intros [Q|[[->|Q] Q2]]; [tauto|congruence|tauto].
      * intros m1 m2 M1 M2. rewrite elem_of_app in M1, M2. apply INJ; rewrite elem_of_app, elem_of_cons; tauto.
Qed.
Lemma methods_of_elem w :
  (forall x y bx b_y m m', w !! x = Some bx -> w !! y = Some b_y -> m ∈ b_meths bx -> m' ∈ b_meths b_y -> ptr m = ptr m' -> m = m') ->
  forall l es, (forall m, m ∈ es -> exists x bx, w !! x = Some bx /\ m ∈ b_meths bx) ->
  forall m, m ∈ methods_of w l es <-> m ∈ es \/ offers_method w l m.
Proof.
  intros INJ2. induction l as [|a l IH]; intros es FE m; unfold methods_of; cbn [fold_left].
  - unfold offers_method. split; [tauto|]. intros [X|(a & p & X & _)]; [done|by apply elem_of_nil in X].
  - match goal with |- context [fold_left ?f l ?e] => change (fold_left f l e) with (methods_of w l e) end.
    destruct (w !! parent_name a) as [p|] eqn:Ep.
    + assert (forall m1 m2, m1 ∈ es ++ b_meths p -> m2 ∈ es ++ b_meths p -> ptr m1 = ptr m2 -> m1 = m2) as INJ'.
      { assert (forall m1, m1 ∈ es ++ b_meths p -> exists x bx, w !! x = Some bx /\ m1 ∈ b_meths bx) as AL.
        { intros m1 M. apply elem_of_app in M as [M|M]; [by apply FE|]. exists (parent_name a), p. done. }
        intros m1 m2 M1 M2. destruct (AL _ M1) as (x1 & b1 & ? & ?). destruct (AL _ M2) as (x2 & b2 & ? & ?). by eapply (INJ2 x1 x2). }
      rewrite IH.
      * rewrite take_methods_elem by done. unfold offers_method. split.
        -- intros [[X|[X V]]|(a' & p' & A1 & A2)]; [tauto| |].
           ++ right. exists a, p. split; [apply elem_of_cons; tauto|]. split; [done|]. split; [done|]. destruct (m_vis (bm m)); try done; tauto.
           ++ right. exists a', p'. split; [apply elem_of_cons; tauto|done].
        -- intros [X|(a' & p' & A1 & A2 & A3 & A4)]; [tauto|]. apply elem_of_cons in A1 as [->|A1].
           ++ left. right. simplify_eq. split; [done|]. by destruct A4 as [-> | ->].
           ++ right. exists a', p'. done.
      * intros m1 M1. apply take_methods_elem in M1; [|done]. destruct M1 as [M1|[M1 _]]; [by apply FE|]. exists (parent_name a), p. done.
    + rewrite IH by done. unfold offers_method. split.
      * intros [X|(a' & p' & A1 & A2)]; [tauto|]. right. exists a', p'. split; [apply elem_of_cons; tauto|done].
      * intros [X|(a' & p' & A1 & A2)]; [tauto|]. apply elem_of_cons in A1 as [->|A1]; [destruct A2 as (A2 & _); congruence|].
        right. exists a', p'. done.
Qed.
