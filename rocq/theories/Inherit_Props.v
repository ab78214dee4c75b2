(** Properties of inheritance: C36, C38, C39, C58, C60, and the bounds of prototype arguments (C41). *)
From stdpp Require Import relations.
From Coq Require Import Sorting.Sorted.
From Verif Require Import Base Base_Proofs Scope_Model Proto_Model Inherit_Model Inherit_Spec Inherit_Proofs Inherit_Proofs2 Inherit_Proofs3.

(** Example types: Object; Shape extends Object, implements Drawable (which implements Named); Circle extends Shape. *)
Definition ext (n : str) : ancestor := Anc AExtends n [] Public.
Definition imp (n : str) : ancestor := Anc AImplements n [] Public.
Definition types_ex : gmap str bp := {[
  $"Object" := empty_type ($"Object") [];
  $"Shape" := BP ($"Shape") [ext ($"Object"); imp ($"Drawable")] [($"area", Protected); ($"secret", Private)] [] [] [] false false Public;
  $"Circle" := BP ($"Circle") [ext ($"Shape")] [($"radius", Public)] [] [] [] false false Public;
  $"Drawable" := empty_type ($"Drawable") [imp ($"Named")];
  $"Named" := empty_type ($"Named") [] ]}.
Definition names_ex : list str := [$"Circle"; $"Drawable"; $"Named"; $"Object"; $"Shape"].

(** ** C36: instance-of *)
(** What an object is an instance of, exactly: the types its own type extends, directly or not, itself included, and
    the types one of those names after implements. *)
Theorem C36_instance_of_partial n w t o u :
  create n w t = Ok o ->
  instance_of o u = true <-> u <> [] /\ exists m, rtc (extends w) t m /\ (m = u \/ implements w m u).
Proof. apply instance_of_created. Qed.
Print Assumptions C36_instance_of_partial.
(** Missing for the full statement is that interfaces may inherit from interfaces; without that it is reachability. *)
Theorem C36_instance_of_reachable n w t o u :
  create n w t = Ok o -> u <> [] ->
  (forall x y z, implements w x y -> ~ inherits w y z) ->
  (forall x b a, w !! x = Some b -> a ∈ b_inh b -> a_type a = AExtends \/ a_type a = AImplements) ->
  instance_of o u = true <-> rtc (inherits w) t u.
Proof.
  intros H NE FL ONLY. rewrite (instance_of_created n w t o u H). split.
  - intros (_ & m & M1 & M2). apply (rtc_transitive _ m).
    + apply (rtc_subrel (extends w)); [|done]. intros x y (b & a & X1 & X2 & X3 & X4). exists b, a. done.
    + destruct M2 as [->|(b & a & X1 & X2 & X3 & X4)]; [apply rtc_refl|]. apply rtc_once. exists b, a. done.
  - intros R. split; [done|]. clear H. induction R as [x|x y z R1 R2 IH].
    + exists x. split; [apply rtc_refl|tauto].
    + destruct R1 as (b & a & X1 & X2 & X3). destruct (ONLY _ _ _ X1 X2) as [T|T].
      * destruct (IH NE) as (m & M1 & M2). exists m. split; [|done]. eapply rtc_l; [|done]. exists b, a. done.
      * assert (implements w x y) as I by (exists b, a; done). exists x. split; [apply rtc_refl|]. right.
        inversion R2; subst; [done|]. exfalso. by eapply FL.
Qed.
Print Assumptions C36_instance_of_reachable.
(** With an interface that implements another one, the full statement fails: a Circle is Drawable, Drawable
    implements Named, and a Circle is not Named. *)
Theorem C36_interface_of_interface_refuted :
  exists n w t o u, create n w t = Ok o /\ u <> [] /\ rtc (inherits w) t u /\ instance_of o u = false.
Proof.
  exists 9%nat, types_ex, ($"Circle"). 
  exists (RObj ($"Circle") [RObj ($"Shape") [RObj ($"Object") []; RObj ($"Drawable") []]]), ($"Named").
  split; [by vm_compute|]. split; [done|]. split; [|by vm_compute].
  apply (rtc_l _ _ ($"Shape")). { eexists _, (ext ($"Shape")). split; [by vm_compute|]. split; [|done]. set_solver. }
  apply (rtc_l _ _ ($"Drawable")). { eexists _, (imp ($"Drawable")). split; [by vm_compute|]. split; [|done]. set_solver. }
  apply rtc_once. eexists _, (imp ($"Named")). split; [by vm_compute|]. split; [|done]. set_solver.
Qed.
Print Assumptions C36_interface_of_interface_refuted.
Example C36_ex :
  match create 9 types_ex ($"Circle") with
  | Ok o => map (instance_of o) names_ex = [true; true; false; true; true] /\ instance_of o [] = false
  | _ => False
  end.
Proof. by vm_compute. Qed.

(** Every object is an instance of its own type, of what its base is an instance of, and, when all types except
    Object extend something, of Object. *)
Theorem C36_own_type n w t o : create n w t = Ok o -> t <> [] -> instance_of o t = true.
Proof. intros H N. apply (instance_of_created n w t o t H). split; [done|]. exists t. split; [apply rtc_refl|tauto]. Qed.
Print Assumptions C36_own_type.
Theorem C36_inherited n n' w t t' o o' u :
  create n w t = Ok o -> create n' w t' = Ok o' -> rtc (extends w) t t' -> instance_of o' u = true -> instance_of o u = true.
Proof.
  intros H H' R I. apply (instance_of_created n' w t' o' u H') in I as (N & m & M1 & M2).
  apply (instance_of_created n w t o u H). split; [done|]. exists m. split; [|done]. by apply (rtc_transitive _ t').
Qed.
Print Assumptions C36_inherited.
Theorem C36_every_object n w t o :
  (forall x b, w !! x = Some b -> x <> $"Object" -> exists a, a ∈ b_inh b /\ a_type a = AExtends) ->
  create n w t = Ok o -> instance_of o ($"Object") = true.
Proof.
  intros X H. apply (instance_of_created n w t o _ H). split; [done|]. exists ($"Object"). split; [|tauto].
  eapply everything_is_object; [|exact H]. intros x b Eb N. destruct (X x b Eb N) as (a & A1 & A2). apply existsb_exists.
  exists a. split; [by apply elem_of_list_In|]. unfold is_extends. by rewrite A2.
Qed.
Print Assumptions C36_every_object.
(** Creating the object of a declared type ends and succeeds, if no type inherits from itself. *)
Theorem C36_creation w t :
  acyclic w -> all_known w -> is_Some (w !! t) ->
  (forall x b a, w !! x = Some b -> a ∈ b_inh b -> is_Some (w !! a_name a)) ->
  (forall x b, w !! x = Some b -> (length (List.filter is_extends (b_inh b)) <= 1)%nat /\ (forall a, a ∈ b_inh b -> a_type a <> AUnknown) /\
     NoDup (implemented_names b)) ->
  exists o, create (size w) w t = Ok o.
Proof. intros AC AK T AN WF. apply (create_total w AC AK AN WF (size w) []); [constructor|set_solver|done|lia]. Qed.
Print Assumptions C36_creation.

(** ** C38: preparing the inheritance *)
Lemma types_ex_cases t b : types_ex !! t = Some b ->
  (t = $"Object" /\ b = empty_type ($"Object") []) \/
  (t = $"Shape" /\ b = BP ($"Shape") [ext ($"Object"); imp ($"Drawable")] [($"area", Protected); ($"secret", Private)] [] [] [] false false Public) \/
  (t = $"Circle" /\ b = BP ($"Circle") [ext ($"Shape")] [($"radius", Public)] [] [] [] false false Public) \/
  (t = $"Drawable" /\ b = empty_type ($"Drawable") [imp ($"Named")]) \/ (t = $"Named" /\ b = empty_type ($"Named") []).
Proof.
  unfold types_ex. intros H. rewrite !lookup_insert_Some, lookup_singleton_Some in H. naive_solver.
Qed.
(** If the types are accepted, each of them (except those that are never prepared) has been prepared, once, after all its
    parents, and none of them has an ancestor that inherits from itself. *)
Theorem C38_order n w ts w' :
  fresh w -> initialize_blueprints n w ts = Ok w' ->
  (forall t b, t ∈ ts -> w !! t = Some b -> b_skip b = false -> t ∈ w_log w') /\
  NoDup (w_log w') /\
  (forall t p, t ∈ w_log w' -> inherits w t p -> before p t (w_log w')) /\
  (forall t x, t ∈ w_log w' -> rtc (inherits w) t x -> ~ tc (inherits w) x x) /\
  (forall t, t ∈ w_log w' <-> exists b, w_types w' !! t = Some b /\ b_prepared b = true).
Proof.
  intros FR H. unfold initialize_blueprints in H. apply rbind_ok in H as (w1 & H1 & H2). pose proof (define_bases_inh _ _ _ H1) as SI.
  assert (fresh w1) as FR1 by (by eapply same_inh_fresh).
  destruct (prepare_all_inv w1 n ts (World w1 []) w' (fresh_inv _ FR1) H2) as (I & _ & T & _).
  split; [|split; [apply I|split; [|split]]].
  - intros t b Ht Eb SK. pose proof (SI t) as Z. rewrite Eb in Z. destruct (w1 !! t) as [b1|] eqn:Eb1; [|done].
    apply (T t b1); [done|done|]. destruct Z as (_ & <- & _). done.
  - intros t p Ht Hp. apply (inv_order _ _ I); [done|]. by apply (same_inh_inherits w w1).
  - intros t x Ht R C.
    assert (forall a b, tc (inherits w) a b -> tc (inherits w1) a b) as TC.
    { intros a b X. eapply tc_sub; [|exact X]. intros c d Q. by apply (same_inh_inherits w w1 c d SI). }
    assert (x ∈ w_log w') as Hx.
    { clear C. induction R as [|t y x R1 R2 IH]; [done|]. apply IH. apply (same_inh_inherits w w1 _ _ SI) in R1.
      apply (inv_order _ _ I t y Ht) in R1 as (l1 & l2 & l3 & E). rewrite E. apply elem_of_app. right. apply elem_of_cons. tauto. }
    by apply (inv_acyclic _ _ I x Hx), TC.
  - intros t. rewrite <- (inv_prep _ _ I t). unfold prep. destruct (w_types w' !! t) as [b|]; split.
    + intros E. exists b. done.
    + intros (b' & ? & ?). by simplify_eq.
    + done.
    + by intros (b' & ? & _).
Qed.
Print Assumptions C38_order.
Example C38_order_ex : fresh types_ex /\
  match initialize_blueprints 9 types_ex names_ex with
  | Ok w' => w_log w' = [$"Object"; $"Named"; $"Drawable"; $"Shape"; $"Circle"]
  | _ => False
  end.
Proof.
  split.
  - intros t b H. apply types_ex_cases in H. destruct H as [[_ ->]|[[_ ->]|[[_ ->]|[[_ ->]|[_ ->]]]]]; done.
  - by vm_compute.
Qed.

(** A type that inherits from itself, directly or through any number of others, is never accepted. *)
Theorem C38_circle_never_accepted n w ts w' t b :
  fresh w -> t ∈ ts -> w !! t = Some b -> b_skip b = false -> tc (inherits w) t t -> initialize_blueprints n w ts <> Ok w'.
Proof.
  intros FR Ht Eb SK C H. destruct (C38_order n w ts w' FR H) as (A & _ & _ & D & _).
  by apply (D t t (A t b Ht Eb SK) (rtc_refl _ _)).
Qed.
Print Assumptions C38_circle_never_accepted.

(** What a prepared type has taken over: of every parent, in order, the parent's own symbols that are not private, and
    the same for its methods. *)
Theorem C38_taken_over n w ts w' t b :
  fresh w -> prepare_all n (World w []) ts = Ok w' -> t ∈ w_log w' -> w_types w' !! t = Some b ->
  (forall x y bx b_y m m', w !! x = Some bx -> w !! y = Some b_y -> m ∈ b_meths bx -> m' ∈ b_meths b_y -> ptr m = ptr m' -> m = m') ->
  (exists b0, w !! t = Some b0 /\ b_inh b0 = b_inh b) /\
  b_esyms b = offers w (b_inh b) /\ (forall m, m ∈ b_emeths b <-> offers_method w (b_inh b) m).
Proof.
  intros FR H Ht Eb INJ2. pose proof (prepare_all_inv w n ts _ _ (fresh_inv _ FR) H) as (I & _).
  destruct (prepare_all_fill w n FR ts (World w []) w' (fresh_inv _ FR)) with (x := t) as (b' & E & F1 & F2); [done|set_solver|done|done|].
  simplify_eq. split.
  { destruct (proj1 (inv_same _ _ I) _ _ Eb) as (b0 & E0 & SD). exists b0. split; [done|]. apply SD. }
  split; [done|]. rewrite F2. intros m. rewrite (methods_of_elem w INJ2) by set_solver. set_solver.
Qed.
Print Assumptions C38_taken_over.
Example C38_taken_over_ex :
  match prepare_all 9 (World types_ex []) names_ex with
  | Ok w' => match w_types w' !! $"Circle" with Some b => b_esyms b = [($"area", Protected)] | None => False end
  | _ => False
  end.
Proof. by vm_compute. Qed.

(** An acyclic set of known types is accepted, in whatever order the types are visited: each extends at most one
    type, and no two parents of a type offer the same name. *)
Theorem C38_acyclic_accepted w ts :
  plain w -> acyclic w -> all_known w -> well_formed w -> fresh w -> no_clash (based w) ->
  NoDup ts -> (forall t, t ∈ ts <-> is_Some (w !! t)) ->
  exists w', initialize_blueprints (size w) w ts = Ok w'.
Proof.
  intros PL AC AK WF FR NCl ND TS. unfold initialize_blueprints.
  rewrite (define_bases_ok w AK WF ts w ND); [|intros t Ht; split; [done|by apply TS]|].
  2:{ intros t Ht. rewrite based_lookup. destruct (w !! t) eqn:E; [|done]. exfalso. apply Ht, TS. by rewrite E. }
  cbn [rbind]. assert (size (based w) = size w) as SZ by (unfold based; by rewrite map_size_fmap).
  apply (prepare_all_accepts (based w)).
  - intros t b a Eb Ha. rewrite based_lookup in Eb. destruct (w !! t) as [b0|] eqn:E0; [|done]. cbn in Eb. simplify_eq.
    rewrite with_base_inh in Ha. by eapply PL.
  - intros t C. apply (AC t). eapply tc_sub; [|exact C]. intros x y. by rewrite based_inherits.
  - intros t b a Eb Ha. rewrite based_lookup in Eb. destruct (w !! t) as [b0|] eqn:E0; [|done]. cbn in Eb. simplify_eq.
    rewrite with_base_inh in Ha. rewrite based_lookup. destruct (AK _ _ _ E0 Ha) as [p ->]. by eexists.
  - done.
  - intros t b Eb. rewrite based_lookup in Eb. destruct (w !! t) as [b0|] eqn:E0; [|done]. cbn in Eb. simplify_eq.
    destruct (with_base_fresh w b0) as (-> & -> & -> & _). by eapply FR.
  - lia.
  - intros t Ht. rewrite based_lookup. apply TS in Ht as [b ->]. by eexists.
  - apply fresh_inv. intros t b Eb. rewrite based_lookup in Eb. destruct (w !! t) as [b0|] eqn:E0; [|done]. cbn in Eb. simplify_eq.
    destruct (with_base_fresh w b0) as (-> & -> & -> & _). by eapply FR.
  - done.
Qed.
Print Assumptions C38_acyclic_accepted.
Definition rank_ex (t : str) : nat :=
  if str_eqb t ($"Circle") then 3 else if str_eqb t ($"Shape") then 2 else if str_eqb t ($"Drawable") then 1 else 0.
Lemma acyclic_rank w (r : str -> nat) : (forall t p, inherits w t p -> (r p < r t)%nat) -> acyclic w.
Proof.
  intros H t C. assert (forall x y, tc (inherits w) x y -> (r y < r x)%nat) as G.
  { intros x y X. induction X as [x y X|x y z X _ IH]; [by apply H|]. apply H in X. lia. }
  apply G in C. lia.
Qed.
Example C38_acyclic_ex : plain types_ex /\ acyclic types_ex /\ all_known types_ex /\ well_formed types_ex /\ no_clash (based types_ex) /\
  NoDup names_ex /\ (forall t, t ∈ names_ex <-> is_Some (types_ex !! t)).
Proof.
  assert (forall t b a, types_ex !! t = Some b -> a ∈ b_inh b -> a_cons a = [] /\ is_Some (types_ex !! parent_name a) /\ (rank_ex (parent_name a) < rank_ex t)%nat) as G.
  { intros t b a H. apply types_ex_cases in H. destruct H as [[-> ->]|[[-> ->]|[[-> ->]|[[-> ->]|[-> ->]]]]]; cbn [b_inh empty_type];
      rewrite ?elem_of_cons, ?elem_of_nil; intros Ha; repeat (destruct Ha as [->|Ha]; [split; [done|]; split; [vm_compute; by eexists|vm_compute; lia]|]); done. }
  split; [intros t b a H Ha; by eapply G|]. split.
  { apply (acyclic_rank _ rank_ex). intros t p (b & a & H & Ha & <-). by eapply G. }
  split; [intros t b a H Ha; by eapply G|]. split.
  { intros t b H. apply types_ex_cases in H.
    destruct H as [[-> ->]|[[-> ->]|[[-> ->]|[[-> ->]|[-> ->]]]]]; cbn [b_inh b_syms empty_type]; (split; [vm_compute; lia|]);
      (split; [intros a Ha; repeat (apply elem_of_cons in Ha as [->|Ha]; [done|]); by apply elem_of_nil in Ha|]);
      intros X; vm_compute in X; repeat (apply elem_of_cons in X as [X|X]; [done|]); by apply elem_of_nil in X. }
  split.
  { intros t b H. rewrite based_lookup in H. destruct (types_ex !! t) as [b0|] eqn:E; [|done]. cbn in H. simplify_eq. rewrite with_base_inh.
    apply types_ex_cases in E.
    destruct E as [[-> ->]|[[-> ->]|[[-> ->]|[[-> ->]|[-> ->]]]]]; apply (bool_decide_unpack _); by vm_compute. }
  split; [apply (bool_decide_unpack _); by vm_compute|]. intros t. split.
  - intros H. unfold names_ex in H. repeat (apply elem_of_cons in H as [->|H]; [vm_compute; by eexists|]). by apply elem_of_nil in H.
  - intros [b H]. apply types_ex_cases in H. unfold names_ex. rewrite !elem_of_cons. naive_solver.
Qed.

(** When circles of inheritance involve at most two types, preparing always ends, with the types accepted or with an
    error message: so those circles are reported. Missing for the full statement are longer circles. *)
Theorem C38_short_circles_partial w ts :
  plain w -> short_cycles w -> (forall t, t ∈ ts -> is_Some (w !! t)) ->
  (exists w', prepare_all (size w) (World w []) ts = Ok w') \/
  prepare_all (size w) (World w []) ts = Throw "UnknownIdentifier" \/
  prepare_all (size w) (World w []) ts = Throw "DesigntimeException" \/
  prepare_all (size w) (World w []) ts = Throw "DuplicateIdentifier".
Proof. intros PL SC T. apply (prepare_all_reported w (size w) PL SC); [lia|done|apply same_world_refl]. Qed.
Print Assumptions C38_short_circles_partial.
Definition two_circle : gmap str bp := {[ $"A" := empty_type ($"A") [ext ($"B")]; $"B" := empty_type ($"B") [ext ($"A")] ]}.
Example C38_short_circles_ex : plain two_circle /\ short_cycles two_circle /\
  prepare_all (size two_circle) (World two_circle []) [$"A"; $"B"] = Throw "DesigntimeException".
Proof.
  assert (forall t b, two_circle !! t = Some b -> t = $"A" /\ b = empty_type ($"A") [ext ($"B")] \/ t = $"B" /\ b = empty_type ($"B") [ext ($"A")]) as C.
  { intros t b H. unfold two_circle in H. rewrite lookup_insert_Some, lookup_singleton_Some in H. naive_solver. }
  split; [|split; [|by vm_compute]].
  - intros t b a H Ha. apply C in H as [[-> ->]|[-> ->]]; apply elem_of_list_singleton in Ha as ->; done.
  - intros t p (b & a & H & Ha & <-) _. apply C in H as [[-> ->]|[-> ->]]; apply elem_of_list_singleton in Ha as ->.
    + eexists _, (ext ($"A")). split; [by vm_compute|]. split; [|done]. set_solver.
    + eexists _, (ext ($"B")). split; [by vm_compute|]. split; [|done]. set_solver.
Qed.
(** A circle of three types is neither accepted nor reported: preparing them does not end. *)
Definition three_circle : gmap str bp :=
  {[ $"A" := empty_type ($"A") [ext ($"B")]; $"B" := empty_type ($"B") [ext ($"C")]; $"C" := empty_type ($"C") [ext ($"A")] ]}.
Theorem C38_long_circle_refuted : exists w ts, forall n, prepare_all n (World w []) ts = Fuel.
Proof.
  exists three_circle, [$"A"; $"B"; $"C"]. intros n.
  assert (forall n, prepare n (World three_circle []) ($"A") = Fuel /\ prepare n (World three_circle []) ($"B") = Fuel /\ prepare n (World three_circle []) ($"C") = Fuel) as G.
  { intros m. induction m as [|m (IA & IB & IC)]; [done|].
    assert (three_circle !! $"A" = Some (empty_type ($"A") [ext ($"B")])) as EA by (by vm_compute).
    assert (three_circle !! $"B" = Some (empty_type ($"B") [ext ($"C")])) as EB by (by vm_compute).
    assert (three_circle !! $"C" = Some (empty_type ($"C") [ext ($"A")])) as EC by (by vm_compute).
    cbn [prepare w_types]. rewrite EA, EB, EC. cbn [b_inh empty_type prepare_loop w_types].
    change (parent_name (ext ($"A"))) with ($"A"). change (parent_name (ext ($"B"))) with ($"B"). change (parent_name (ext ($"C"))) with ($"C").
    rewrite EA, EB, EC. cbn [b_prepared empty_type]. rewrite IA, IB, IC. by vm_compute. }
  cbn [prepare_all w_types]. assert (three_circle !! $"A" = Some (empty_type ($"A") [ext ($"B")])) as -> by (by vm_compute).
  cbn [b_skip b_prepared empty_type orb]. by rewrite (proj1 (G n)).
Qed.
Print Assumptions C38_long_circle_refuted.
(** An acyclic set can be rejected: two interfaces of one type that declare the same name. *)
Theorem C38_same_name_refuted : exists w ts, acyclic w /\ all_known w /\ plain w /\ fresh w /\ well_formed w /\
  (forall t, t ∈ ts <-> is_Some (w !! t)) /\ initialize_blueprints (size w) w ts = Throw "DuplicateIdentifier".
Proof.
  set (P := fun n => BP n [] [($"size", Public)] [] [] [] false false Public).
  exists {[ $"A" := P ($"A"); $"B" := P ($"B"); $"C" := empty_type ($"C") [imp ($"A"); imp ($"B")] ]}, [$"A"; $"B"; $"C"].
  set (w := {[ _ := _; _ := _; _ := _ ]} : gmap str bp).
  assert (forall t b, w !! t = Some b -> t = $"A" /\ b = P ($"A") \/ t = $"B" /\ b = P ($"B") \/ t = $"C" /\ b = empty_type ($"C") [imp ($"A"); imp ($"B")]) as C.
  { intros t b H. unfold w in H. rewrite !lookup_insert_Some, lookup_singleton_Some in H. naive_solver. }
  split; [apply (acyclic_rank _ (fun t => if str_eqb t ($"C") then 1 else 0)%nat)|].
  { intros t p (b & a & H & Ha & <-). apply C in H as [[-> ->]|[[-> ->]|[-> ->]]]; cbn in Ha; [by apply elem_of_nil in Ha..|].
    apply elem_of_cons in Ha as [->|Ha]; [vm_compute; lia|]. apply elem_of_list_singleton in Ha as ->. vm_compute. lia. }
  split.
  { intros t b a H Ha. apply C in H as [[-> ->]|[[-> ->]|[-> ->]]]; cbn in Ha; [by apply elem_of_nil in Ha..|].
    apply elem_of_cons in Ha as [->|Ha]; [vm_compute; by eexists|]. apply elem_of_list_singleton in Ha as ->. vm_compute. by eexists. }
  split.
  { intros t b a H Ha. apply C in H as [[-> ->]|[[-> ->]|[-> ->]]]; cbn in Ha; [by apply elem_of_nil in Ha..|].
    apply elem_of_cons in Ha as [->|Ha]; [done|]. by apply elem_of_list_singleton in Ha as ->. }
  split; [intros t b H; by apply C in H as [[-> ->]|[[-> ->]|[-> ->]]]|]. split.
  { intros t b H. apply C in H as [[-> ->]|[[-> ->]|[-> ->]]]; (split; [vm_compute; lia|]); (split; [|set_solver]); intros a Ha; cbn in Ha;
      [by apply elem_of_nil in Ha..|]. apply elem_of_cons in Ha as [->|Ha]; [done|]. by apply elem_of_list_singleton in Ha as ->. }
  split; [|by vm_compute]. intros t. rewrite !elem_of_cons, elem_of_nil. split.
  - intros [->|[->|[->|[]]]]; vm_compute; by eexists.
  - intros [b H]. apply C in H. naive_solver.
Qed.
Print Assumptions C38_same_name_refuted.

(** ** C39: overriding *)
Lemma empty_jinv name inh : JInv [] (empty_type name inh).
Proof.
  split; cbn.
  - done.
  - intros x X. by apply elem_of_nil in X.
  - intros x X. by apply elem_of_nil in X.
  - intros x y X. by apply elem_of_nil in X.
  - intros x y X. apply before_in in X as [X _]. by apply elem_of_nil in X.
Qed.
(** The methods of a type, if accepted: whenever a later method would answer the same call as an earlier one, the earlier
    one has been replaced, by that one or one in between, under the contract: it was virtual or abstract (so neither final
    nor static), the new one is marked override (or abstract), and return type and constness agree. *)
Theorem C39_contract_partial name inh ms b x y :
  NoDup (map ptr ms) -> define_methods (empty_type name inh) ms = Ok b -> before x y ms -> collides x y ->
  exists z, (z = y \/ before z y ms) /\ before x z ms /\ collides x z /\ may_override x z.
Proof. intros ND H. apply (j_contract _ _ (define_methods_inv ms [] _ b ND (empty_jinv name inh) H)). Qed.
Print Assumptions C39_contract_partial.
(** No method is lost otherwise, in particular no final, static or ordinary one; and what is left is unambiguous. *)
Theorem C39_nothing_else_lost name inh ms b x :
  NoDup (map ptr ms) -> define_methods (empty_type name inh) ms = Ok b -> x ∈ ms ->
  x ∈ b_meths b \/ exists y, before x y ms /\ collides x y /\ may_override x y.
Proof. intros ND H. apply (j_gone _ _ (define_methods_inv ms [] _ b ND (empty_jinv name inh) H)). Qed.
Print Assumptions C39_nothing_else_lost.
Corollary C39_final_kept name inh ms b x :
  NoDup (map ptr ms) -> define_methods (empty_type name inh) ms = Ok b -> x ∈ ms -> ~ overridable x ->
  x ∈ b_meths b /\ forall y, before x y ms -> ~ collides x y.
Proof.
  intros ND H X NO. split.
  - destruct (C39_nothing_else_lost name inh ms b x ND H X) as [Y|(y & _ & _ & (O & _))]; done.
  - intros y B C. by destruct (C39_contract_partial name inh ms b x y ND H B C) as (z & _ & _ & _ & (O & _)).
Qed.
Print Assumptions C39_final_kept.
Theorem C39_unambiguous name inh ms b :
  NoDup (map ptr ms) -> define_methods (empty_type name inh) ms = Ok b ->
  (forall x, x ∈ b_meths b -> x ∈ ms) /\
  (forall x y, x ∈ b_meths b -> y ∈ b_meths b -> before x y ms -> ~ collides x y).
Proof.
  intros ND H. pose proof (define_methods_inv ms [] _ b ND (empty_jinv name inh) H) as J. split; [apply (j_in _ _ J)|apply (j_clear _ _ J)].
Qed.
Print Assumptions C39_unambiguous.
(** A method that answers no earlier method's calls is accepted, and so is one that may replace the only such method. *)
Theorem C39_accepted b m :
  b_emeths b = [] -> (forall x, x ∈ b_meths b -> ptr x <> ptr m) ->
  (forall x y, x ∈ b_meths b -> y ∈ b_meths b -> ptr x = ptr y -> x = y) ->
  (forall x, x ∈ b_meths b -> collides x m -> may_override x m) ->
  (forall x y, x ∈ b_meths b -> y ∈ b_meths b -> collides x m -> collides y m -> x = y) ->
  exists b', define_method b m = Ok b' /\ forall x, x ∈ b_meths b' <-> x = m \/ (x ∈ b_meths b /\ ~ collides x m).
Proof.
  intros E P INJ OV UN. unfold define_method. destruct (find_method (b_meths b) _ _) as [old|] eqn:F.
  - apply find_method_some in F as [F1 F2]. pose proof (OV old F1 F2) as O. apply override_check_iff in O. rewrite O. cbn [rbind].
    unfold scope_define. cbn [b_meths b_emeths]. rewrite E, app_nil_r.
    assert (forall x, x ∈ meth_erase (b_meths b) old <-> x ∈ b_meths b /\ ~ collides x m) as ME.
    { intros x. rewrite meth_erase_elem. split; intros [X Y]; (split; [done|]).
      - intros C. apply Y. by rewrite (UN x old X F1 C F2).
      - intros Z. apply Y. by rewrite (INJ x old X F1 Z). }
    assert (find_method (meth_erase (b_meths b) old) (m_name (bm m)) (m_sig (bm m)) = None) as ->.
    { apply find_method_none_iff. intros x X. by apply ME in X as [_ X]. }
    eexists. split; [done|]. cbn [b_meths]. intros x. rewrite meth_insert_elem, ME; [done|]. intros y Y. apply meth_erase_elem in Y as [Y _]. by apply P.
  - rewrite E. cbn [find_method List.find]. unfold scope_define. rewrite E, app_nil_r, F. eexists. split; [done|]. cbn [b_meths].
    intros x. rewrite meth_insert_elem by done. pose proof (find_method_none _ _ _ F x) as N. unfold collides. tauto.
Qed.
Print Assumptions C39_accepted.
(** A method that is defined takes no other name away: the members of other names stay as they are. *)
Theorem C39_other_names b m b' n v : define_method b m = Ok b' -> n <> m_name (bm m) -> (n, v) ∈ b_syms b' <-> (n, v) ∈ b_syms b.
Proof.
  intros H Hn. assert (forall c c', scope_define c m = Ok c' -> b_syms c' = b_syms c) as K.
  { intros c c'. unfold scope_define. destruct (find_method _ _ _); [discriminate|]. by intros [= <-]. }
  unfold define_method in H. destruct (find_method (b_meths b) _ _) as [old|] eqn:F.
  - destruct (override_check old m); try discriminate. cbn [rbind] in H. apply K in H as ->. cbn [b_syms].
    apply find_method_some in F as [_ [F _]]. unfold sym_erase. rewrite !elem_of_list_In, filter_In. cbn [fst].
    assert (str_eqb n (m_name (bm old)) = false) as -> by (apply bool_decide_eq_false_2; congruence). cbn [negb]. tauto.
  - destruct (find_method (b_emeths b) _ _) as [old|]; [destruct (override_check old m); discriminate|]. by apply K in H as ->.
Qed.
Print Assumptions C39_other_names.
Example C39_other_names_ex : exists b b', define_method (BP ($"T") [] [($"size", Public)] [] [] [] false false Public) (BMethod (Method 1 ($"draw") Public [] false) LVirtual MMethod ($"void") false false) = Ok b /\
  define_method b (BMethod (Method 2 ($"draw") Public [] false) LOverride MMethod ($"void") false false) = Ok b' /\ b_syms b' = [($"size", Public)].
Proof. eexists _, _. split; [vm_compute; reflexivity|]. split; vm_compute; reflexivity. Qed.
Definition meth_ex (p : N) (name : str) (l : layout) (ret : str) : bmethod :=
  BMethod (Method p name Public [Param ($"x") ($"int") false 0%Z 0%N] false) l MMethod ret false false.
Definition body_ex : list bmethod := [meth_ex 3 ($"draw") LVirtual ($"void"); meth_ex 1 ($"size") LFinal ($"int"); meth_ex 2 ($"draw") LOverride ($"void")].
Example C39_ex : NoDup (map ptr body_ex) /\
  match define_methods (empty_type ($"T") []) body_ex with Ok b => map ptr (b_meths b) = [1%N; 2%N] | _ => False end /\
  collides (meth_ex 3 ($"draw") LVirtual ($"void")) (meth_ex 2 ($"draw") LOverride ($"void")) /\
  define_methods (empty_type ($"T") []) [meth_ex 3 ($"draw") LVirtual ($"void"); meth_ex 2 ($"draw") LOverride ($"int")] = Throw "SyntaxError" /\
  define_methods (empty_type ($"T") []) [meth_ex 3 ($"draw") LFinal ($"void"); meth_ex 2 ($"draw") LOverride ($"void")] = Throw "SyntaxError".
Proof. split; [apply (bool_decide_unpack _); by vm_compute|]. split; [by vm_compute|]. split; [by vm_compute|]. by vm_compute. Qed.
(** The contract is not applied between a type and its base, because a type's methods are defined before its parents' are
    taken over: here a final method of the base is redefined with another return type, without override, and accepted. *)
Theorem C39_final_of_base_refuted : exists mb md bb bd,
  define_methods (empty_type ($"Base") []) [mb] = Ok bb /\ define_methods (empty_type ($"Derived") [ext ($"Base")]) [md] = Ok bd /\
  bm_layout mb = LFinal /\ bm_ret mb <> bm_ret md /\ bm_layout md <> LOverride /\ collides mb md /\
  match initialize_blueprints 9 {[ $"Base" := bb; $"Derived" := bd ]} [$"Base"; $"Derived"] with
  | Ok w => match w_types w !! $"Derived" with Some d => b_meths d = [md] /\ b_emeths d = [mb] | None => False end
  | _ => False
  end.
Proof.
  exists (meth_ex 1 ($"size") LFinal ($"int")), (meth_ex 2 ($"size") LUnspecified ($"string")).
  eexists _, _. split; [reflexivity|]. split; [reflexivity|]. split; [done|]. split; [done|]. split; [done|]. split; [by vm_compute|]. by vm_compute.
Qed.
Print Assumptions C39_final_of_base_refuted.
(** A method marked override is accepted although nothing is overridden. *)
Theorem C39_override_of_nothing_refuted : exists m b, define_methods (empty_type ($"T") []) [m] = Ok b /\ bm_layout m = LOverride.
Proof. exists (meth_ex 1 ($"draw") LOverride ($"void")). eexists. split; [reflexivity|done]. Qed.
Print Assumptions C39_override_of_nothing_refuted.

(** ** C58: the set of ancestors *)
(** Ancestors that differ in kind, name or visibility are all kept, and the result does not depend on the order in which
    they are written. *)
Theorem C58_all_kept ks : NoDup (map anc_key ks) -> Permutation (fold_left anc_insert ks []) ks.
Proof. intros ND. by apply (anc_inserts ks []); [constructor|]. Qed.
Print Assumptions C58_all_kept.
Theorem C58_order_independent ks ks' :
  NoDup (map anc_key ks) -> Permutation ks ks' -> fold_left anc_insert ks [] = fold_left anc_insert ks' [].
Proof.
  intros ND P. assert (NoDup (map anc_key ks')) as ND' by (by rewrite <- P).
  destruct (anc_inserts ks []) as (P1 & S1); [constructor|done|]. destruct (anc_inserts ks' []) as (P2 & S2); [constructor|done|].
  apply sorted_unique; [done|done| |].
  - by rewrite P1.
  - rewrite P1, P2. done.
Qed.
Print Assumptions C58_order_independent.
(** Base types come first, in alphabetical order, then interfaces. *)
Theorem C58_order ks a b :
  NoDup (map anc_key ks) -> before a b (fold_left anc_insert ks []) ->
  (anc_num (a_type a) < anc_num (a_type b))%nat \/ (a_type a = a_type b /\ (str_ltb (a_name a) (a_name b) = true \/ a_name a = a_name b)).
Proof.
  intros ND (l1 & l2 & l3 & E). destruct (anc_inserts ks []) as (P & SO); [constructor|done|]. rewrite E in SO.
  assert (anc_key a <> anc_key b) as N.
  { assert (NoDup (map anc_key (fold_left anc_insert ks []))) as X by (by rewrite P). rewrite E, map_app in X. apply NoDup_app in X as (_ & _ & X).
    cbn [map] in X. inversion X as [|? ? N1 N2]; subst. intros K. apply N1. rewrite K, map_app. cbn [map]. set_solver. }
  assert (anc_less a b = true) as L.
  { clear E ND P. induction l1 as [|z l1 IH]; cbn [app] in SO; inversion SO as [|? ? A B]; subst; [|by apply IH].
    rewrite Forall_forall in B. apply B. set_solver. }
  rewrite anc_less_key in L by done. apply orb_true_iff in L as [L|L]; [left; by apply Nat.ltb_lt|]. apply andb_true_iff in L as [L1 L2].
  apply Nat.eqb_eq in L1. right. split; [by destruct (a_type a), (a_type b)|]. apply orb_true_iff in L2 as [L2|L2]; [tauto|].
  apply andb_true_iff in L2 as [L2 _]. right. by apply bool_decide_eq_true in L2.
Qed.
Print Assumptions C58_order.
Example C58_ex : let ks := [imp ($"Drawable"); ext ($"Shape"); imp ($"Comparable")] in
  NoDup (map anc_key ks) /\ fold_left anc_insert ks [] = [ext ($"Shape"); imp ($"Comparable"); imp ($"Drawable")].
Proof. split; [apply (bool_decide_unpack _); by vm_compute|by vm_compute]. Qed.
(** Not a set when the same ancestor is written twice: it is kept twice, for every ancestor. *)
Theorem C58_repeated_refuted : forall a, fold_left anc_insert [a; a] [] = [a; a].
Proof.
  intros a. cbn. assert (anc_less a a = true) as ->; [|done]. unfold anc_less. rewrite Nat.eqb_refl. unfold str_eqb.
  rewrite bool_decide_eq_true_2 by done. rewrite Nat.eqb_refl. unfold cons_eqb. rewrite Nat.eqb_refl.
  induction (a_cons a) as [|c l IH]; [done|]. cbn. assert (con_eqb c c = true) as ->; [|done]. unfold con_eqb, str_eqb. rewrite ?N.eqb_refl, ?Nat.eqb_refl, ?bool_decide_eq_true_2 by done. done.
Qed.
Print Assumptions C58_repeated_refuted.
(** And of two base types that differ only in their number of type arguments the second is lost. *)
Theorem C58_arguments_refuted : exists a b, a_name a = a_name b /\ parent_name a <> parent_name b /\ fold_left anc_insert [a; b] [] = [a].
Proof.
  exists (Anc AImplements ($"Box") [Con 0 [] ($"int") []] Public), (Anc AImplements ($"Box") [Con 0 [] ($"int") []; Con 1 [] ($"bool") []] Public).
  split; [done|]. split; [by vm_compute|]. by vm_compute.
Qed.
Print Assumptions C58_arguments_refuted.
(** A declared object always extends something: what it says, or Object. *)
Theorem C58_extends_something ks l :
  declared_inheritance true ks = Ok l -> NoDup (map anc_key ks) ->
  (exists a, a ∈ l /\ a_type a = AExtends) /\ (forall a, a ∈ ks -> a ∈ l) /\
  (forall a, a ∈ l -> a ∈ ks \/ (a = object_ancestor /\ forall k, k ∈ ks -> a_type k <> AExtends)).
Proof.
  unfold declared_inheritance. intros H ND. apply rbind_ok in H as (l1 & H1 & H2).
  assert (forall ks l l1, add_all l ks = Ok l1 -> l1 = fold_left anc_insert ks l) as AA.
  { clear. induction ks as [|k ks IH]; intros l l1 H; cbn [add_all] in H; [by simplify_eq|]. apply rbind_ok in H as (l2 & H1 & H2).
    unfold add_inheritance in H1. destruct (a_name k); [done|]. simplify_eq. by apply IH. }
  apply AA in H1. subst l1. assert (Permutation (fold_left anc_insert ks []) ks) as P1 by (by apply C58_all_kept).
  assert (Permutation (fold_left anc_insert (fold_left anc_insert ks []) []) ks) as P2.
  { rewrite <- P1 at 2. apply C58_all_kept. by rewrite P1. }
  destruct (anc_inserts (fold_left anc_insert ks []) []) as (_ & SO); [constructor|cbn; by rewrite P1|].
  set (l0 := fold_left anc_insert (fold_left anc_insert ks []) []) in *.
  cbn [andb] in H2. destruct (existsb is_extends l0) eqn:X; cbn [negb] in H2.
  - simplify_eq. split; [|split].
    + apply existsb_exists in X as (a & A & B). exists a. split; [by apply elem_of_list_In|]. unfold is_extends in B. by destruct (a_type a).
    + intros a A. by rewrite P2.
    + intros a A. left. by rewrite <- P2.
  - cbn in H2. simplify_eq.
    assert (forall k, k ∈ ks -> a_type k <> AExtends) as NE.
    { intros k K T. rewrite <- P2 in K. apply elem_of_list_In in K. assert (existsb is_extends l0 = true) as Y; [|congruence].
      apply existsb_exists. exists k. split; [done|]. unfold is_extends. by rewrite T. }
    destruct (anc_insert_at_perm object_ancestor l0 None SO) as (P3 & _); [|done|].
    { intros x Hx K. rewrite P2 in Hx. apply (NE x Hx). unfold anc_key in K. injection K as K _ _. by destruct (a_type x). }
    fold (anc_insert l0 object_ancestor) in P3. split; [|split].
    + exists object_ancestor. split; [|done]. rewrite P3. apply elem_of_cons. tauto.
    + intros a A. rewrite P3. apply elem_of_cons. right. by rewrite P2.
    + intros a A. rewrite P3 in A. apply elem_of_cons in A as [->|A]; [tauto|]. left. by rewrite <- P2.
Qed.
Print Assumptions C58_extends_something.
Example C58_extends_ex : declared_inheritance true [imp ($"Drawable")] = Ok [object_ancestor; imp ($"Drawable")] /\
  declared_inheritance true [imp ($"Drawable"); ext ($"Shape")] = Ok [ext ($"Shape"); imp ($"Drawable")].
Proof. split; by vm_compute. Qed.

(** ** C60: abstract types *)
(** Creating an object of a type that declares an abstract method of its own is refused. *)
Theorem C60_own_abstract n w t b m o :
  w !! t = Some b -> m ∈ b_meths b -> bm_layout m = LAbstract -> create n w t = Ok o -> new_object n w t = Throw "AbstractException".
Proof.
  intros Eb M L H. unfold new_object. rewrite H, Eb. cbn [rbind]. assert (abstract_object b = true) as ->; [|done].
  apply existsb_exists. exists m. split; [by apply elem_of_list_In|]. unfold is_abstract, is_static. by rewrite L.
Qed.
Print Assumptions C60_own_abstract.
Corollary C60_created_is_concrete n w t b o m :
  w !! t = Some b -> new_object n w t = Ok o -> m ∈ b_meths b -> bm_layout m <> LAbstract.
Proof.
  intros Eb H M L. destruct (create n w t) as [o'| | |] eqn:C; [|unfold new_object in H; rewrite C in H; done..].
  by rewrite (C60_own_abstract n w t b m o' Eb M L C) in H.
Qed.
Print Assumptions C60_created_is_concrete.
(** A type all of whose own methods are concrete can be created, if its base objects can. *)
Theorem C60_concrete_created n w t b o :
  w !! t = Some b -> (forall m, m ∈ b_meths b -> bm_layout m <> LAbstract) -> create n w t = Ok o -> new_object n w t = Ok o.
Proof.
  intros Eb M H. unfold new_object. rewrite H, Eb. cbn [rbind]. destruct (abstract_object b) eqn:A; [|done]. exfalso.
  apply existsb_exists in A as (m & A1 & A2). apply elem_of_list_In in A1. apply andb_true_iff in A2 as [A2 _]. apply (M m A1).
  unfold is_abstract in A2. by destruct (bm_layout m).
Qed.
Print Assumptions C60_concrete_created.
(** An abstract method that is inherited and not implemented does not prevent creation. *)
Theorem C60_inherited_abstract_refuted : exists n w t p b m o,
  extends w t p /\ w !! p = Some b /\ m ∈ b_meths b /\ bm_layout m = LAbstract /\
  (forall d x, w !! t = Some d -> x ∈ b_meths d -> ~ collides m x) /\ new_object n w t = Ok o /\ instance_of o p = true.
Proof.
  set (m := meth_ex 1 ($"draw") LAbstract ($"void")).
  exists 9%nat, {[ $"Shape" := BP ($"Shape") [] [] [m] [] [] false false Public; $"Circle" := empty_type ($"Circle") [ext ($"Shape")] ]},
    ($"Circle"), ($"Shape"), (BP ($"Shape") [] [] [m] [] [] false false Public), m, (RObj ($"Circle") [RObj ($"Shape") []]).
  split; [eexists _, (ext ($"Shape")); split; [by vm_compute|]; split; [set_solver|done]|]. split; [by vm_compute|]. split; [set_solver|]. split; [done|].
  split; [|by vm_compute]. intros d x H Hx. rewrite lookup_insert_ne in H by done. rewrite lookup_singleton in H. simplify_eq. cbn in Hx. by apply elem_of_nil in Hx.
Qed.
Print Assumptions C60_inherited_abstract_refuted.
Example C60_ex :
  let w := {[ $"Shape" := BP ($"Shape") [] [] [meth_ex 1 ($"draw") LAbstract ($"void")] [] [] false false Public ]} : gmap str bp in
  create 9 w ($"Shape") = Ok (RObj ($"Shape") []) /\ new_object 9 w ($"Shape") = Throw "AbstractException".
Proof. by vm_compute. Qed.

(** ** C41: bounds of prototype arguments *)
(** A type is accepted for a bounded placeholder iff it is the bound or names it in its own inheritance list. *)
Theorem C41_bound w c :
  plain w -> (forall t b, w !! t = Some b -> b_name b = t) -> is_Some (w !! c_run c) ->
  bound_ok w c = Ok tt <-> c_bound c = [] \/ c_run c = c_bound c \/ inherits w (c_run c) (c_bound c).
Proof.
  intros PL NM [b Eb]. unfold bound_ok. rewrite Eb. pose proof (NM _ _ Eb) as N. pose proof (inherits_from_iff w (c_run c) b (c_bound c) PL Eb) as IF.
  destruct (c_bound c) as [|x y] eqn:E; [tauto|]. rewrite <- E in *. unfold str_eqb. rewrite N.
  destruct (bool_decide_reflect (c_run c = c_bound c)) as [D|D]; cbn [orb]; [tauto|].
  destruct (inherits_from b (c_bound c)) eqn:F.
  - split; [|done]. intros _. right. right. by apply IF.
  - split; [done|]. intros [Q|[Q|Q]]; [congruence|done|]. apply IF in Q. done.
Qed.
Print Assumptions C41_bound.
(** So a type that inherits from the bound indirectly is rejected. *)
Theorem C41_indirect_bound_refuted : exists w c, rtc (inherits w) (c_run c) (c_bound c) /\ bound_ok w c = Throw "TypeMismatch".
Proof.
  exists types_ex, (Con 0 ($"T") ($"Circle") ($"Object")). split; [|by vm_compute].
  apply (rtc_l _ _ ($"Shape")). { eexists _, (ext ($"Shape")). split; [by vm_compute|]. split; [|done]. set_solver. }
  apply rtc_once. eexists _, (ext ($"Object")). split; [by vm_compute|]. split; [|done]. set_solver.
Qed.
Print Assumptions C41_indirect_bound_refuted.
