(** Properties C01-C04: the reference counting memory. *)
From stdpp Require Import relations.
From Verif Require Import Base Memory_Model Memory_Spec Memory_Proofs Memory_Graph Memory_Runs.

(** C01: whatever happens between the allocations, the addresses handed out are
    pairwise different, never null and inside the 32 bit range. *)
Theorem C01_addresses_fresh : forall os : list mop,
  NoDup (mnews (init 0) os) /\ Forall (fun a => 0 < a < 4294967295)%N (mnews (init 0) os).
Proof.
  intros os. destruct (mnews_sound os (init 0)) as [H1 H2]; [reflexivity|].
  split; [exact H2|]. eapply Forall_impl; [exact H1|]. cbn. intros; lia.
Qed.
Example C01_example :
  mnews (init 0) [MNew; MAdd 1; MRemove 1; MNew; MAdd 2; MNew; MRemove 2; MNew] = [1; 2; 3; 4]%N.
Proof. vm_compute. reflexivity. Qed.
Print Assumptions C01_addresses_fresh.

(** C01, exhaustion: after [k] successful allocations the next one succeeds iff
    k < 2^32 - 2; afterwards it throws and does not reuse anything. *)
Theorem C01_exhaustion : forall os m, mrun (init 0) os = Ok m ->
  let k := N.of_nat (length (mnews (init 0) os)) in
  ((k < 4294967294)%N -> exists m', mstep m MNew = Ok m') /\
  ((4294967294 <= k)%N -> mstep m MNew = Throw "memory exhausted!").
Proof.
  intros os m H k. apply mnews_next in H. change (next (init 0)) with 1%N in H. fold k in H.
  cbn [mstep]. unfold mem_new.
  destruct (N.leb_spec 4294967295 (next m)); cbn [rbind]; split; intros; try lia; eauto.
Qed.
Example C01_exhaustion_example :
  exists m, mrun (init 0) [MNew; MAdd 1; MRemove 1] = Ok m /\ is_ok (mstep m MNew) = true.
Proof. eexists. split; [vm_compute; reflexivity|]. vm_compute. reflexivity. Qed.
Print Assumptions C01_exhaustion.

(** C02: for every legal history (fewer than 2^32-2 calls, so that the unsigned
    counter and the address space suffice) the calls succeed and the memory holds
    exactly the objects not yet released to zero, with count = acquisitions -
    releases, and exactly the objects released to zero were destroyed, once. *)
Theorem C02_counts_are_balances : forall os : list mop,
  legal os -> (N.of_nat (length os) < 4294967294)%N ->
  exists m, mrun (init 0) os = Ok m /\
    (forall a, live m a <-> allocated a os /\ ~ released_to_zero a os) /\
    (forall a e, heap m !! a = Some e ->
        (rems a os <= adds a os)%nat /\ count e = N.of_nat (adds a os - rems a os)) /\
    NoDup (log m) /\
    (forall a, a ∈ log m <-> allocated a os /\ released_to_zero a os).
Proof.
  intros os Hl Hb. destruct (legal_run os Hl Hb) as (m&Hm&Hn&Hh&Hnone&Hnd&Hlog&_).
  exists m. split; [exact Hm|]. split_and!; [|intros a e He; destruct (Hh a e He) as (?&?&?&?&_); auto|exact Hnd|exact Hlog].
  intros a. unfold live. split.
  - intros [e He]. destruct (Hh a e He) as (?&?&_). auto.
  - intros [Ha Hr]. destruct (heap m !! a) eqn:E; [eauto|].
    destruct (Hnone a E) as [->|[?|?]]; [destruct Ha; lia|done..].
Qed.
Example C02_example : legal [MNew; MAdd 1; MNew; MAdd 1; MRemove 1; MRemove 1; MAdd 2]%N.
Proof.
  apply legal_check. cbn [legal_from app]. unfold legal_op, allocated, released_to_zero, adds, rems, news.
  vm_compute. intuition (try congruence; try lia).
Qed.
Print Assumptions C02_counts_are_balances.

(** Outside the property's quantifier: releasing an object that was never
    acquired wraps the counter around and the object is never destroyed. *)
Theorem C02_over_release_wraps : exists m e, mrun (init 0) [MNew; MRemove 1]%N = Ok m /\
  heap m !! 1%N = Some e /\ count e = 4294967295%N /\ log m = [].
Proof. eexists _, _. split_and!; vm_compute; reflexivity. Qed.
Print Assumptions C02_over_release_wraps.

(** C03: programs whose references are held by variables only. [var_op] admits
    creation of member-less objects, assignment between variables, and setting a
    variable to null (which is also what dropping it does). At the end of every
    such history an object is in memory iff some variable refers to it, its count
    is the number of those variables, and the others were destroyed exactly once. *)
Theorem C03_variables_never_dangle : forall nv os fuel,
  Forall var_op os -> (length os < fuel)%nat -> (N.of_nat (nv + slots_made os) + 1 < two32)%N ->
  exists m, grun fuel (init nv) os = Ok m /\
   (forall a, live m a <-> a <> 0%N /\ a ∈ vars m) /\
   (forall a e, heap m !! a = Some e -> N.to_nat (count e) = count_occ N.eq_dec (vars m) a) /\
   NoDup (log m) /\ (forall a, a ∈ log m <-> (0 < a < next m)%N /\ a ∉ vars m).
Proof.
  intros nv os fuel Ho Hf Hb.
  destruct (grun_inv nv fuel os (var_ops_ok nv os Ho) Hf Hb) as (m&Hm&HI).
  exists m. split; [exact Hm|].
  assert (Hfl : flat m).
  { eapply grun_flat; [|exact Ho|exact Hm]. intros a e. cbn. by rewrite lookup_empty. }
  destruct (inv_safe nv m HI) as (H1&H2&H3&H4). unfold refs_to in H2. rewrite (flat_slots m Hfl) in H1, H2.
  assert (Hiff : forall a, live m a <-> a <> 0%N /\ a ∈ vars m).
  { intros a. split.
    - intros [e He]. destruct (H2 a e He) as [_ Hp]. split; [by destruct (i_cnt HI a e He)|].
      apply cocc_pos. exact Hp.
    - intros [? ?]. by apply H1. }
  split_and!; [exact Hiff|intros a e He; by destruct (H2 a e He)|exact H3|].
  intros a. rewrite H4, Hiff. split; intros [? Hn]; (split; [done|]); intros ?; apply Hn; [split; [lia|done]|tauto].
Qed.
Example C03_example : exists m,
  Forall var_op [GNew 0 0 []; GSetVar 1 0; GNew 0 0 []; GSetVar 1 1; GNull 0; GSetVar 2 1]%nat /\
  grun 7 (init 3) [GNew 0 0 []; GSetVar 1 0; GNew 0 0 []; GSetVar 1 1; GNull 0; GSetVar 2 1] = Ok m /\
  vars m = [0; 1; 1]%N /\ log m = [2]%N.
Proof.
  eexists. split; [repeat constructor|]. split; [vm_compute; reflexivity|]. split; vm_compute; reflexivity.
Qed.
Print Assumptions C03_variables_never_dangle.

(** C03: assigning a variable to itself changes nothing at all, in every state
    reached by any history (members and destructors included). *)
Theorem C03_self_assignment : forall nv os fuel m x,
  Forall (gop_ok nv) os -> (length os < fuel)%nat -> (N.of_nat (nv + slots_made os) + 1 < two32)%N ->
  grun fuel (init nv) os = Ok m -> (x < nv)%nat -> gstep fuel m (GSetVar x x) = Ok m.
Proof.
  intros nv os fuel m x Ho Hf Hb Hm Hx.
  destruct (grun_inv nv fuel os Ho Hf Hb) as (m'&Hm'&HI). assert (m' = m) by congruence. subst m'.
  apply (self_assign nv); [exact HI|exact Hx|lia].
Qed.
Example C03_self_example : exists m,
  grun 4 (init 1) [GNew 0 1 []; GSetField 0 0 0; GNullField 0 0] = Ok m /\ vars m = [1%N].
Proof. eexists. split; vm_compute; reflexivity. Qed.
Print Assumptions C03_self_assignment.

(** C03/C04: what an assignment does, whatever it destroys on the way, provided
    destructors only touch their own object: exactly the target changes. *)
Theorem C03_assignment_effect : forall fuel m x y m',
  own_dtors m -> gstep fuel m (GSetVar x y) = Ok m' ->
  exists v, vars m !! y = Some v /\ vars m' = <[x := v]> (vars m) /\
   (forall b e', heap m' !! b = Some e' -> exists e, heap m !! b = Some e /\ fields e' = fields e).
Proof. exact setvar_effect. Qed.
Example C03_assignment_effect_example : exists m m',
  own_dtors m /\ gstep 3 m (GSetVar 1 0) = Ok m' /\ log m' = [2]%N /\ vars m' = [1; 1]%N.
Proof.
  eexists (Mem (<[1%N := Entry 1 [] []]> (<[2%N := Entry 1 [0%N] [DAssign (SField 0) RNull]]> ∅)) 3 [1; 2]%N []), _.
  split.
  - intros a e. cbn. rewrite lookup_insert_Some. intros [[<- <-]|[_ H]]; [constructor|].
    apply lookup_insert_Some in H as [[<- <-]|[_ H]]; [repeat constructor|].
    by rewrite lookup_empty in H.
  - split; [vm_compute; reflexivity|]. split; vm_compute; reflexivity.
Qed.
Print Assumptions C03_assignment_effect.

Theorem C04_member_assignment_effect : forall fuel m x i y m',
  own_dtors m -> gstep fuel m (GSetField x i y) = Ok m' ->
  exists a v, vars m !! x = Some a /\ vars m !! y = Some v /\ vars m' = vars m /\
    (forall b e', heap m' !! b = Some e' -> exists e, heap m !! b = Some e /\
       fields e' = if decide (b = a) then <[i := v]> (fields e) else fields e).
Proof. exact setfield_effect. Qed.
Print Assumptions C04_member_assignment_effect.

(** C04: any program over [nv] variables; objects with any number of members and
    any destructors that assign members, variables and null ([gop_ok]; not handing
    out [this]). Every history runs to its end; afterwards no variable and no
    member dangles, an object is in memory iff something refers to it and its
    count is the number of references, and exactly the other objects made so far
    were destroyed, each exactly once. *)
Theorem C04_no_dangling : forall nv os fuel,
  Forall (gop_ok nv) os -> (length os < fuel)%nat -> (N.of_nat (nv + slots_made os) + 1 < two32)%N ->
  exists m, grun fuel (init nv) os = Ok m /\
    (forall a, a ∈ all_slots m -> a <> 0%N -> live m a) /\
    (forall a e, heap m !! a = Some e -> N.to_nat (count e) = refs_to m a /\ (0 < refs_to m a)%nat) /\
    NoDup (log m) /\
    (forall a, a ∈ log m <-> (0 < a < next m)%N /\ ~ live m a).
Proof.
  intros nv os fuel Ho Hf Hb. destruct (grun_inv nv fuel os Ho Hf Hb) as (m&Hm&HI).
  exists m. split; [exact Hm|]. by apply (inv_safe nv).
Qed.
(** Three objects in a chain, one destructor redirecting a variable; dropping the
    head cascades. *)
Definition C04_history : list gop :=
  [GNew 0 1 []; GNew 1 1 [DAssign (SVar 2) (RSlot (SField 0))]; GNew 2 0 [];
   GSetField 0 0 1; GSetField 1 0 2; GNull 2; GNull 1; GNull 0].
Example C04_example : Forall (gop_ok 3) C04_history /\
  exists m, grun 9 (init 3) C04_history = Ok m /\ log m = [1; 2]%N /\ vars m = [0; 0; 3]%N.
Proof.
  split; [repeat constructor|]. eexists. split; [vm_compute; reflexivity|]. split; vm_compute; reflexivity.
Qed.
Print Assumptions C04_no_dangling.

(** C04, cascade: if the structure reached is acyclic and all variables are null,
    nothing is left in memory and every object ever made was destroyed. *)
Theorem C04_acyclic_no_leak : forall nv os fuel m,
  Forall (gop_ok nv) os -> (length os < fuel)%nat -> (N.of_nat (nv + slots_made os) + 1 < two32)%N ->
  grun fuel (init nv) os = Ok m ->
  Forall (fun v => v = 0%N) (vars m) -> acyclic m ->
  heap m = ∅ /\ (forall a, (0 < a < next m)%N -> a ∈ log m).
Proof.
  intros nv os fuel m Ho Hf Hb Hm Hz Hac.
  destruct (grun_inv nv fuel os Ho Hf Hb) as (m'&Hm'&HI). assert (m' = m) by congruence. subst m'.
  pose proof (no_leak nv m HI Hz Hac) as He. split; [exact He|].
  destruct (inv_safe nv m HI) as (_&_&_&H4). intros a Ha. apply H4. split; [done|].
  unfold live. rewrite He, lookup_empty. by intros [? ?].
Qed.
Example C04_acyclic_example : exists m,
  grun 9 (init 3) (C04_history ++ [GNull 2]) = Ok m /\ vars m = [0; 0; 0]%N /\ log m = [1; 2; 3]%N.
Proof. eexists. split; [vm_compute; reflexivity|]. split; vm_compute; reflexivity. Qed.
Print Assumptions C04_acyclic_no_leak.

(** The documented leak: a cycle keeps its objects alive without any variable. *)
Theorem C04_cycles_leak : exists m,
  grun 9 (init 2) [GNew 0 1 []; GNew 1 1 []; GSetField 0 0 1; GSetField 1 0 0; GNull 0; GNull 1] = Ok m /\
  vars m = [0; 0]%N /\ live m 1 /\ live m 2 /\ ~ acyclic m.
Proof.
  eexists. split; [vm_compute; reflexivity|]. split; [reflexivity|].
  split; [eexists; vm_compute; reflexivity|]. split; [eexists; vm_compute; reflexivity|].
  intros H. apply (H 1%N). eapply tc_l; [|apply tc_once].
  - instantiate (1 := 2%N). eexists. split; [vm_compute; reflexivity|]. split; [done|]. left.
  - eexists. split; [vm_compute; reflexivity|]. split; [done|]. left.
Qed.
Print Assumptions C04_cycles_leak.

(** Finding: the restriction on destructors is needed. A destructor that passes
    [this] on acquires and releases its own object, whose count is already zero;
    the release starts the destruction again: unbounded recursion. *)
Theorem C04_destructor_using_this_refuted : forall fuel,
  grun fuel (init 1) [GNew 0 0 [DTouchThis]; GNull 0] = Fuel.
Proof.
  intros fuel. cbn [grun].
  set (m1 := Mem (<[1%N := Entry 1 [] [DTouchThis]]> (<[1%N := Entry 0 [] [DTouchThis]]> ∅)) 2 [1%N] []).
  assert (gstep fuel (init 1) (GNew 0 0 [DTouchThis]) = Ok m1) as -> by reflexivity.
  cbn [gstep]. unfold assign_ref. change (read_slot m1 0 (SVar 0)) with (Some 1%N).
  cbn [mem_add valid N.eqb negb rbind].
  erewrite touch_diverges; [reflexivity| | | |].
  - apply lookup_insert.
  - done.
  - reflexivity.
  - reflexivity.
Qed.
Print Assumptions C04_destructor_using_this_refuted.
