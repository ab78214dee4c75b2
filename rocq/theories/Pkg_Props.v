(** Properties C44, C45: the package manager. *)
From stdpp Require Import relations.
From Verif Require Import Base Text_Model SemVer_Model Pkg_Model Pkg_Spec Pkg_Proofs.

(** ** C44: preparing an installation *)
(** A finished preparation asked the server for exactly the module and everything it
    transitively needs. *)
Theorem C44_visits_exactly_what_is_needed server local arch n m s s' :
  prepare server local arch false n m s = Ok s' ->
  exists new, p_asked s' = p_asked s ++ new /\ forall x, x ∈ new <-> rtc (needs server local) m x.
Proof. intros H. apply prepare_did in H as (new & E & _ & W & _). eauto. Qed.

(** Afterwards every dependency of every module it looked at is installed or scheduled. *)
Theorem C44_closed server local arch n m s s' x j d :
  prepare server local arch false n m s = Ok s' ->
  rtc (needs server local) m x ->
  server (fst x) (print_version (snd x)) = Some j -> lists (j_deps j) d ->
  d_name d ∈ map fst local \/ d_name d ∈ map fst (p_missing s').
Proof.
  intros H Hx Hj Hd. apply prepare_did in H as (new & _ & _ & _ & K & _).
  destruct (decide (d_name d ∈ map fst local)) as [I|I]; [by left|]. right. apply K. right.
  exists (d_name d, fst (parse_version (d_min d))). split; [|done].
  eapply tc_rtc_l; [exact Hx|]. apply tc_once. by econstructor.
Qed.
(** Nothing is scheduled that is not needed, and nothing scheduled before is lost. *)
Theorem C44_schedules_only_what_is_needed server local arch n m s s' x :
  prepare server local arch false n m s = Ok s' ->
  (x ∈ p_missing s -> x ∈ p_missing s') /\
  (x ∈ p_missing s' -> x ∈ p_missing s \/ tc (needs server local) m x).
Proof. intros H. apply prepare_did in H as (new & _ & _ & _ & _ & L & M). auto. Qed.

(** On a repository without cycles in reach of the module, preparing ends. *)
Theorem C44_terminates_without_cycles server local arch m (all : list module) :
  (forall x, rtc (needs server local) m x -> x ∈ all) ->
  (forall x, ~ tc (needs server local) x x) ->
  exists n, forall n' s, (n <= n')%nat -> prepare server local arch false n' m s <> Fuel.
Proof.
  intros F C. apply prepare_ends. eapply acyclic_acc; [exact F|exact C].
Qed.
(** The bound on the depth does not matter once the preparation has finished. *)
Theorem C44_deterministic server local arch n n' m s s' :
  prepare server local arch false n m s = Ok s' -> (n <= n')%nat -> prepare server local arch false n' m s = Ok s'.
Proof. apply prepare_mono. Qed.
(** With a cycle of modules that are not installed it never ends: there is no guard. *)
Theorem C44_cycles_refuted server local arch n m x s s' :
  rtc (needs server local) m x -> tc (needs server local) x x ->
  prepare server local arch false n m s <> Ok s'.
Proof.
  intros Hr Hc H. apply rtc_nsteps in Hr as (k0 & Hk0).
  assert (forall k, exists k', (k <= k')%nat /\ nsteps (needs server local) k' x x) as L.
  { intros k. induction k as [|k (k' & Lk & Hk')]; [exists 0%nat; split; [lia|constructor]|].
    apply tc_nsteps in Hc as (c & Lc & Hc). exists (c + k')%nat. split; [lia|]. by eapply nsteps_trans. }
  destruct (L n) as (k & Lk & Hk). eapply prepare_paths in H; [|by eapply nsteps_trans]. lia.
Qed.

(** Modules for another architecture are refused, and nothing else is: a module whose document names no architecture or the
    one of this system never stops the preparation. *)
Theorem C44_architecture server local arch n m s s' x j :
  prepare server local arch false n m s = Ok s' -> rtc (needs server local) m x ->
  server (fst x) (print_version (snd x)) = Some j -> j_arch j = [] \/ j_arch j = arch.
Proof.
  intros H Hr Hj. revert n s s' H. induction Hr as [m|m y x Hy Hr IH]; intros [|n] s s' H; cbn [prepare] in H; try discriminate.
  - unfold fetch in H. rewrite Hj in H. destruct (decide (j_arch j = [])) as [|N]; [by left|]. right.
    rewrite (bool_decide_eq_false_2 (j_arch j = [])) in H by done. cbn [negb andb] in H.
    unfold str_eqb in H. case_bool_decide; [done|discriminate].
  - inversion Hy as [m0 j0 d Hs Hl Hi]; subst. unfold fetch in H. rewrite Hs in H. destruct (_ && _); [discriminate|].
    apply set_of_lists in Hl. eapply prepare_deps_each in H as (t & t' & Ht); [|done..]. by eapply IH.
Qed.
Theorem C44_only_architecture server local arch n m s e :
  (forall x j, rtc (needs server local) m x -> server (fst x) (print_version (snd x)) = Some j -> j_arch j = [] \/ j_arch j = arch) ->
  prepare server local arch false n m s <> Throw e.
Proof.
  revert m s. induction n as [|n IH]; intros m s H; cbn [prepare]; [done|]. unfold fetch.
  destruct (server (fst m) (print_version (snd m))) as [j|] eqn:Hj; [|done].
  assert (negb (bool_decide (j_arch j = [])) && negb (str_eqb (j_arch j) arch) = false) as ->.
  { destruct (H m j) as [E|E]; [constructor|done| |]; [by rewrite bool_decide_eq_true_2|].
    unfold str_eqb. rewrite (bool_decide_eq_true_2 (j_arch j = arch)) by done. by rewrite andb_false_r. }
  assert (forall d, d ∈ set_of d_name (j_deps j) -> d_name d ∉ map fst local -> forall t, prepare server local arch false n (dep_module d) t <> Throw e) as K.
  { intros d Hd Hi t. apply IH. intros x j' Hx. apply H. eapply rtc_l; [|exact Hx]. apply set_of_lists in Hd. by econstructor. }
  match goal with |- prepare_deps _ _ _ ?s <> _ => generalize s end.
  induction (set_of d_name (j_deps j)) as [|d ds IHd]; intros t; cbn [prepare_deps]; [done|].
  destruct (installed local (d_name d)) eqn:Ei.
  - apply IHd. intros d' Hd'. apply K. by right.
  - destruct (prepare server local arch false n (dep_module d) _) as [t'|e'| |] eqn:E; cbn [rbind]; try done.
    + apply IHd. intros d' Hd'. apply K. by right.
    + intros [= ->]. eapply K; [left| |exact E]. intros Hi. apply installed_spec in Hi. congruence.
Qed.
Print Assumptions C44_architecture.
Print Assumptions C44_only_architecture.
Example C44_architecture_ex :
  let server (n v : str) := Some (Doc ($"x86") [] v true) in let s := Pst [] ∅ [] in let m := ($"a", fst (parse_version ($"1.0.0"))) in
  (exists s', prepare server [] ($"x86") false 3 m s = Ok s') /\ prepare server [] ($"arm") false 3 m s = Throw "exit".
Proof. split; [eexists|]; by vm_compute. Qed.

Definition doc0 (v : str) (ds : list dep) : doc := Doc [] ds v true.
(** a needs b and c, c needs b. *)
Definition diamond (n v : str) : option doc :=
  if str_eqb n ($"a") then Some (doc0 v [Dep ($"c") ($"1.0.0") []; Dep ($"b") ($"1.0.0") []])
  else if str_eqb n ($"c") then Some (doc0 v [Dep ($"b") ($"1.0.0") []])
  else if str_eqb n ($"b") then Some (doc0 v []) else None.
Example C44_case :
  let a := ($"a", Version 1 0 0 [] []) in
  let r := prepare diamond [($"x", Version 1 0 0 [] [])] [] false 5 a fresh in
  match r with
  | Ok s => map fst (p_missing s) = [$"b"; $"c"] /\ map fst (p_asked s) = [$"a"; $"b"; $"c"; $"b"]
  | _ => False
  end /\ (forall x, ~ tc (needs diamond []) x x).
Proof.
  split; [vm_compute; split; reflexivity|].
  assert (forall x y, needs diamond [] x y ->
    (str_eqb (fst y) ($"b") = true /\ str_eqb (fst x) ($"b") = false) \/
    (str_eqb (fst y) ($"c") = true /\ str_eqb (fst x) ($"a") = true)) as N.
  { intros x y H. inversion H as [m j d J L I]; subst. cbn [fst]. unfold diamond in J.
    destruct L as (b & a & E & _). assert (d ∈ j_deps j) as D by (rewrite E; set_solver). clear E.
    unfold str_eqb in *. destruct (bool_decide_reflect (fst x = $"a")) as [->|Na].
    - injection J as <-. cbn [j_deps doc0] in D. apply elem_of_cons in D as [->|D]; [right; split; reflexivity|].
      apply elem_of_list_singleton in D as ->. left. split; reflexivity.
    - destruct (bool_decide_reflect (fst x = $"c")) as [->|Nc].
      + injection J as <-. cbn [j_deps doc0] in D. apply elem_of_list_singleton in D as ->. left. split; reflexivity.
      + destruct (bool_decide (fst x = $"b")); [|done]. injection J as <-. by apply elem_of_nil in D. }
  assert (forall x y, tc (needs diamond []) x y -> fst x <> fst y) as T.
  { assert (forall x y, tc (needs diamond []) x y -> fst x <> $"b" /\ (fst y = $"b" \/ (fst y = $"c" /\ fst x = $"a"))) as T.
    { unfold str_eqb in N. induction 1 as [x y H|x y z H _ IH]; apply N in H;
        repeat match goal with H : _ /\ _ |- _ => destruct H | H : _ \/ _ |- _ => destruct H
          | H : bool_decide _ = true |- _ => apply bool_decide_eq_true in H
          | H : bool_decide _ = false |- _ => apply bool_decide_eq_false in H end;
        repeat match goal with H : fst _ = _ |- _ => rewrite H in * end; try (split; [done|]; tauto); try done. }
    intros x y H E. apply T in H as [H1 [H2|[H2 H3]]]; [congruence|]. rewrite H2, H3 in E. discriminate. }
  intros x H. by apply T in H.
Qed.
Definition cyclic (n v : str) : option doc :=
  if str_eqb n ($"a") then Some (doc0 v [Dep ($"b") ($"1.0.0") []])
  else if str_eqb n ($"b") then Some (doc0 v [Dep ($"a") ($"1.0.0") []]) else None.
Example C44_cycles_case : tc (needs cyclic []) ($"a", Version 1 0 0 [] []) ($"a", Version 1 0 0 [] []).
Proof.
  eapply tc_l with ($"b", Version 1 0 0 [] []).
  - apply (needs_intro cyclic [] _ (doc0 ($"1.0.0") [Dep ($"b") ($"1.0.0") []]) (Dep ($"b") ($"1.0.0") [])); [by vm_compute| |by intros H%elem_of_nil].
    exists [], []. split; [done|constructor].
  - apply tc_once.
    apply (needs_intro cyclic [] _ (doc0 ($"1.0.0") [Dep ($"a") ($"1.0.0") []]) (Dep ($"a") ($"1.0.0") [])); [by vm_compute| |by intros H%elem_of_nil].
    exists [], []. split; [done|constructor].
Qed.

(** ** C44: installing *)
(** A successful install unpacks every needed module that is not installed, if all the
    documents asked for under its name can be unpacked; what is unpacked is one of the
    versions that were asked for. *)
Theorem C44_install_unpacks_what_is_needed server local arch n rs remote force params s' out m p x :
  install server local arch false n rs remote force params fresh = Ok (s', out) ->
  Forall (fun p => exists m, asks remote p m) params ->
  (forall p m r, p ∈ params -> asks remote p m -> r ∈ rs -> r_name r = fst m -> within r (snd m)) ->
  p ∈ params -> asks remote p m -> rtc (needs server local) m x -> fst x ∉ map fst local ->
  (forall y, y ∈ p_asked s' -> fst y = fst x ->
     exists j, server (fst y) (print_version (snd y)) = Some j /\ j_target j = true) ->
  exists y j, y ∈ p_asked s' /\ fst y = fst x /\ server (fst y) (print_version (snd y)) = Some j /\
    (fst x, j_version j) ∈ out.
Proof.
  intros H AS OK Hp Ha Hx NI T. unfold install in H. destruct params as [|p0 ps]; [by apply elem_of_nil in Hp|].
  revert H. set (params := p0 :: ps) in *. set (reqs := map (requested remote) params).
  destruct (prepare_all _ _ _ _ _ _ _) as [s1| | |] eqn:E; cbn [rbind]; try done.
  apply prepare_all_did in E as (new & E1 & E2 & W & K & _ & _). cbn [fresh p_asked p_cache p_missing] in *.
  assert (m ∈ map fst reqs) as Hm.
  { unfold reqs. rewrite map_map. apply elem_of_list_fmap. exists p. split; [|done]. symmetry. by apply asks_requested. }
  assert (forallb (check_restrictions rs) (map fst reqs) = true) as ->.
  { apply forallb_forall. intros q Hq. apply elem_of_list_In in Hq. apply check_spec. intros r Hr Er.
    unfold reqs in Hq. rewrite map_map in Hq. apply elem_of_list_fmap in Hq as (p' & -> & Hp').
    rewrite Forall_forall in AS. destruct (AS p' Hp') as (m' & Hm'). rewrite (asks_requested _ _ _ Hm') in Er |- *.
    by eapply OK. }
  intros [= <- <-]. cbn [p_asked p_cache] in T |- *. rewrite E1 in T |- *. cbn [app] in T |- *.
  assert (x ∈ new) as Hxn by (apply W; eauto).
  destruct (replay_cache server ∅ new (fst x)) as [[_ N]|(y & Hy & Ey & R)]; [by destruct (N x Hxn)|].
  destruct (T y Hy Ey) as (j & Hj & Tj). exists y, j. split; [done|]. split; [done|]. split; [done|].
  assert (fst x ∈ map fst (fold_left (fun acc m => add_module m acc) (map fst reqs) (p_missing s1))) as IN.
  { apply fold_add_keys. apply rtc_inv in Hx as [<-|(z & Hz & Hr)].
    - left. apply elem_of_list_fmap. eauto.
    - right. apply K. right. exists x. split; [|done]. exists m. split; [done|]. eapply tc_rtc_r; [by apply tc_once|done]. }
  apply elem_of_list_fmap in IN as (q & Eq & Hq). apply elem_of_list_In, in_flat_map. exists q.
  split; [by apply elem_of_list_In|]. apply elem_of_list_In. rewrite <- Eq.
  assert (get_module (fst x) local = None) as ->.
  { destruct (get_module (fst x) local) as [t|] eqn:G; [|done]. exfalso. apply NI. unfold get_module in G.
    apply find_some in G as [G1 G2]. apply elem_of_list_fmap. exists t. split; [|by apply elem_of_list_In].
    unfold str_eqb in G2. by apply bool_decide_eq_true in G2. }
  unfold install_module. cbn [p_cache]. rewrite E2, R. unfold fetch. rewrite Hj, Tj. by apply elem_of_list_singleton.
Qed.
Print Assumptions C44_install_unpacks_what_is_needed.
Example C44_install_case :
  let remote := [($"a", Version 2 0 0 [] [])] in
  (exists s', install diamond [] [] false 9 [] remote false [$"a"] fresh =
    Ok (s', [($"a", $"2.0.0"); ($"b", $"1.0.0"); ($"c", $"1.0.0")])) /\
  asks remote ($"a") ($"a", Version 2 0 0 [] []).
Proof.
  split; [eexists; vm_compute; reflexivity|]. apply asks_latest.
  - intros H. apply elem_of_list_singleton in H. discriminate.
  - set_solver.
  - by vm_compute.
  - intros m H _. by apply elem_of_list_singleton in H.
Qed.

(** Asking for a module that is already installed, without naming a version, replaces it if
    and only if the version in the index is newer than the one installed. *)
Theorem C44_update server local arch n rs remote p m t j s' out :
  install server local arch false n rs remote false [p] fresh = Ok (s', out) ->
  asks remote p m -> chr 58 ∉ p ->
  (forall r, r ∈ rs -> r_name r = fst m -> within r (snd m)) ->
  t ∈ local -> fst t = fst m -> (forall t', t' ∈ local -> fst t' = fst m -> t' = t) ->
  server (fst m) (print_version (snd m)) = Some j -> j_target j = true ->
  (version_ltb (snd t) (snd m) = true -> (fst m, j_version j) ∈ out) /\
  (version_ltb (snd t) (snd m) = false -> fst m ∉ map fst out).
Proof.
  intros H Ha NC OK Ht Et U J TJ. unfold install in H. cbn [map] in H.
  pose proof (asks_requested _ _ _ Ha) as RQ.
  assert (snd (requested remote p) = false) as RF.
  { unfold requested. rewrite split_no_colon by done. cbv beta iota.
    destruct (bool_decide_reflect ([] =@{str} [])) as [_|C]; [|done]. by destruct (get_module p remote). }
  cbn [existsb] in H. rewrite RQ, RF in H. cbn [orb] in H. revert H.
  destruct (prepare_all _ _ _ _ _ _ _) as [s1| | |] eqn:E; cbn [rbind]; try done.
  apply prepare_all_did in E as (new & E1 & E2 & W & _ & _ & K). cbn [fresh p_asked p_cache p_missing] in *.
  assert (forallb (check_restrictions rs) [m] = true) as ->.
  { cbn [forallb]. rewrite andb_true_r. by apply check_spec. }
  assert (forall x y, tc (needs server local) x y -> fst y ∉ map fst local) as NL.
  { intros x y T. induction T as [x y N|x y z N _ IH]; [|done]. inversion N; subst. done. }
  assert (fst m ∈ map fst local) as ML by (apply elem_of_list_fmap; exists t; done).
  assert (forall x, x ∈ p_missing s1 -> fst x <> fst m) as MN.
  { intros x Hx Ex. apply K in Hx as [Hx|(m' & Hm' & T)]; [by apply elem_of_nil in Hx|].
    apply NL in T. by rewrite Ex in T. }
  assert (get_module (fst m) local = Some t) as GM.
  { destruct (get_module (fst m) local) as [t'|] eqn:G; unfold get_module in G.
    - apply find_some in G as [G1 G2]. unfold str_eqb in G2. apply bool_decide_eq_true in G2.
      f_equal. apply U; [by apply elem_of_list_In|done].
    - exfalso. apply elem_of_list_In in Ht. eapply find_none in G; [|exact Ht]. unfold str_eqb in G.
      by rewrite bool_decide_eq_true_2 in G. }
  assert (forall x, x ∈ add_module m (p_missing s1) <-> x ∈ p_missing s1 \/ x = m) as AM.
  { intros x. unfold add_module. rewrite set_add_elem. naive_solver. }
  assert (replay server ∅ new !! fst m = Some (Some j)) as RC.
  { destruct (replay_cache server ∅ new (fst m)) as [[_ N]|(y & Hy & Ey & R)].
    - exfalso. apply (N m); [|done]. apply W. exists m. split; [set_solver|constructor].
    - assert (y = m) as ->.
      { apply W in Hy as (m' & Hm' & T). apply elem_of_list_singleton in Hm' as ->.
        apply rtc_inv in T as [T|(z & Hz & Hr)]; [done|]. exfalso.
        apply (NL m y); [eapply tc_rtc_r; [by apply tc_once|done]|]. by rewrite Ey. }
      rewrite R. unfold fetch. by rewrite J. }
  intros [= <- <-]. cbn [fold_left negb andb]. split; intros V.
  - apply elem_of_list_In, in_flat_map. exists m. split; [apply elem_of_list_In, AM; by right|].
    rewrite GM, V. cbn [negb]. unfold install_module. cbn [p_cache]. rewrite E2, RC, TJ. by left.
  - intros I. apply elem_of_list_fmap in I as ((nm & v) & En & I). cbn [fst] in En. subst nm.
    apply elem_of_list_In, in_flat_map in I as (q & Hq & I). apply elem_of_list_In, AM in Hq as [Hq| ->].
    + assert (fst q = fst m) as X; [|by apply (MN q)].
      destruct (get_module (fst q) local) as [t'|]; [destruct (negb _); [done|]|];
        unfold install_module in I; destruct (_ !! fst q) as [[j'|]|]; try done;
        destruct (j_target j'); try done; destruct I as [I|I]; try done; by injection I.
    + rewrite GM, V in I. done.
Qed.
Print Assumptions C44_update.
Example C44_update_case :
  let remote := [($"b", Version 2 0 0 [] [])] in
  let run local := install diamond local [] false 9 [] remote false [$"b"] fresh in
  (exists s', run [($"b", Version 1 0 0 [] [])] = Ok (s', [($"b", $"2.0.0")])) /\
  (exists s', run [($"b", Version 2 0 0 [] [])] = Ok (s', [])) /\
  (exists s', run [($"b", Version 3 0 0 [] [])] = Ok (s', [])).
Proof. repeat split; eexists; vm_compute; reflexivity. Qed.

(** The version that is unpacked need not satisfy the minimum of everyone who needs it: the
    last document downloaded wins. Here a needs b from 2.0.0 on, and c is content with 1.0.0. *)
Definition two_versions (n v : str) : option doc :=
  if str_eqb n ($"a") then Some (doc0 v [Dep ($"b") ($"2.0.0") []; Dep ($"c") ($"1.0.0") []])
  else if str_eqb n ($"c") then Some (doc0 v [Dep ($"b") ($"1.0.0") []])
  else if str_eqb n ($"b") then Some (doc0 v []) else None.
Theorem C44_minimum_version_refuted :
  exists s' out, install two_versions [] [] false 9 [] [] false [$"a:1.0.0"] fresh = Ok (s', out) /\
    ($"b", $"1.0.0") ∈ out /\
    (exists j d, two_versions ($"a") ($"1.0.0") = Some j /\ lists (j_deps j) d /\ d_name d = $"b" /\ d_min d = $"2.0.0").
Proof.
  eexists. eexists. split; [vm_compute; reflexivity|]. split; [set_solver|].
  eexists. exists (Dep ($"b") ($"2.0.0") []). split; [vm_compute; reflexivity|]. split; [|done].
  exists [], [Dep ($"c") ($"1.0.0") []]. split; [done|constructor].
Qed.
(** An installed version that is too old is not replaced. *)
Theorem C44_installed_version_refuted :
  exists s' out, install two_versions [($"b", Version 0 1 0 [] [])] [] false 9 [] [] false [$"a:1.0.0"] fresh = Ok (s', out) /\
    $"b" ∉ map fst out /\ $"b" ∉ map fst (p_missing s').
Proof.
  eexists. eexists. split; [vm_compute; reflexivity|].
  split; vm_compute; intros H; repeat (apply elem_of_cons in H as [H|H]; [discriminate|]); by apply elem_of_nil in H.
Qed.
(** The maximum a document gives for a dependency has no effect at all: a server that gives
    other maxima leads to the same modules being scheduled and unpacked. *)
Theorem C44_maximum_version_refuted f server local arch n rs remote force params s' out :
  install server local arch false n rs remote force params fresh = Ok (s', out) ->
  exists s2, install (other_max f server) local arch false n rs remote force params fresh = Ok (s2, out) /\
    p_missing s2 = p_missing s' /\ p_asked s2 = p_asked s'.
Proof. apply install_other_max. Qed.
(** A dependency the server does not have goes unnoticed: the rest is installed. *)
Definition dangling (n v : str) : option doc :=
  if str_eqb n ($"a") then Some (doc0 v [Dep ($"b") ($"2.0.0") []]) else None.
Theorem C44_missing_module_refuted :
  exists s', install dangling [] [] false 9 [] [] false [$"a:1.0.0"] fresh = Ok (s', [($"a", $"1.0.0")]).
Proof. eexists. vm_compute. reflexivity. Qed.

(** ** C45: restrictions *)
(** The check accepts a module exactly if its version is inside the limits of every
    restriction on it. *)
Theorem C45_check rs m : check_restrictions rs m = true <-> forall r, r ∈ rs -> r_name r = fst m -> within r (snd m).
Proof. apply check_spec. Qed.
(** If one requested module is outside its limits, install unpacks nothing. *)
Theorem C45_install_refuses server local arch skip n rs remote force params s s' out p m r :
  install server local arch skip n rs remote force params s = Ok (s', out) ->
  p ∈ params -> asks remote p m -> r ∈ rs -> r_name r = fst m -> ~ within r (snd m) -> out = [].
Proof.
  intros H Hp Ha Hr En Nw. unfold install in H. destruct params as [|p0 ps]; [by apply elem_of_nil in Hp|].
  revert H. set (params := p0 :: ps) in *. destruct (prepare_all _ _ _ _ _ _ _) as [s1| | |]; cbn [rbind]; try done.
  destruct (forallb (check_restrictions rs) _) eqn:F; [|by intros [= _ <-]].
  exfalso. apply Nw. rewrite forallb_forall in F. eapply check_spec; [|exact Hr|exact En]. apply F.
  apply elem_of_list_In. rewrite map_map. apply elem_of_list_fmap. exists p. split; [|done].
  symmetry. by apply asks_requested.
Qed.
Print Assumptions C45_install_refuses.
Example C45_case :
  let rs := [Restr ($"b") ($"1.0.0") ($"1.5.0")] in
  check_restrictions rs ($"b", Version 1 2 0 [] []) = true /\ check_restrictions rs ($"b", Version 1 6 0 [] []) = false /\
  check_restrictions rs ($"b", Version 0 9 0 [] []) = false /\
  (exists s', install two_versions [] [] false 9 rs [] false [$"b:2.0.0"] fresh = Ok (s', [])).
Proof. repeat split; try (vm_compute; reflexivity). eexists. vm_compute. reflexivity. Qed.
(** Modules installed as dependencies are not checked. *)
Theorem C45_dependencies_refuted :
  exists rs s' out, install two_versions [] [] false 9 rs [] false [$"c:1.0.0"] fresh = Ok (s', out) /\
    ($"b", $"1.0.0") ∈ out /\ check_restrictions rs ($"b", Version 1 0 0 [] []) = false.
Proof.
  exists [Restr ($"b") ($"2.0.0") []]. eexists. eexists. split; [vm_compute; reflexivity|]. split; [set_solver|].
  by vm_compute.
Qed.

(** The limits in force: the built-in one for the product itself and, for every other name,
    the configured one. *)
Theorem C45_configuration product pv config r :
  NoDup (map r_name config) ->
  r ∈ load_restrictions product pv config <-> r = Restr product [] pv \/ (r ∈ config /\ r_name r <> product).
Proof.
  intros ND. unfold load_restrictions, set_of. cbn [fold_left]. rewrite fold_set_elem.
  assert (forall z, z ∈ set_add r_name (Restr product [] pv) [] <-> z = Restr product [] pv) as S1.
  { intros z. change (set_add r_name (Restr product [] pv) []) with [Restr product [] pv]. apply elem_of_list_singleton. }
  rewrite S1. split.
  - intros [->|(b & a & -> & _ & Z)]; [by left|right]. split; [set_solver|]. intros E.
    apply (Z (Restr product [] pv)); [by apply S1|]. done.
  - intros [->|[H N]]; [by left|right]. apply elem_of_list_split in H as (b & a & ->). exists b, a. split; [done|].
    split; [|by intros z ->%S1].
    apply Forall_forall. intros e He Ee. rewrite map_app in ND. apply NoDup_app in ND as (_ & D & _).
    apply (D (r_name r)); [|cbn; apply elem_of_cons; by left]. rewrite <- Ee. apply elem_of_list_fmap. eauto.
Qed.
Print Assumptions C45_configuration.
Example C45_configuration_case : NoDup (map r_name [Restr ($"b") ($"1.0.0") []; Restr ($"Slang") [] ($"9.0.0")]) /\
  load_restrictions ($"Slang") ($"1.0.0") [Restr ($"b") ($"1.0.0") []; Restr ($"Slang") [] ($"9.0.0")] =
  [Restr ($"Slang") [] ($"1.0.0"); Restr ($"b") ($"1.0.0") []].
Proof. split; [|by vm_compute]. repeat constructor; set_solver. Qed.
(** So a configured restriction of the product itself is ignored, although the comment in the
    source says it overwrites the built-in one. *)
Theorem C45_product_refuted product pv config r :
  NoDup (map r_name config) -> r ∈ load_restrictions product pv config -> r_name r = product -> r = Restr product [] pv.
Proof. intros ND H E. apply C45_configuration in H as [->|[_ N]]; done. Qed.

(** A module is reported as outdated exactly if the repository has a newer version of it. *)
Theorem C45_outdated local remote m : NoDup (map fst remote) ->
  m ∈ outdated local remote <-> m ∈ remote /\ exists l, l ∈ local /\ fst l = fst m /\ version_ltb (snd l) (snd m) = true.
Proof.
  intros ND. unfold outdated. rewrite fold_set_elem.
  match goal with |- context [flat_map ?f local] => set (L := flat_map f local) end. assert (forall x, x ∈ L <-> x ∈ remote /\ exists l, l ∈ local /\ fst l = fst x /\ version_ltb (snd l) (snd x) = true) as E.
  { intros x. transitivity (In x L); [apply elem_of_list_In|]. unfold L. rewrite in_flat_map. split.
    - intros (l & Hl & Hx). apply elem_of_list_In in Hl, Hx. apply elem_of_list_filter in Hx as [P Hx].
      apply andb_True in P as [P1 P2]. apply Is_true_true in P1, P2. unfold str_eqb in P1. apply bool_decide_eq_true in P1.
      split; [done|]. eauto.
    - intros (Hx & l & Hl & En & Ev). exists l. split; [by apply elem_of_list_In|]. apply elem_of_list_In, elem_of_list_filter.
      split; [|done]. unfold str_eqb. rewrite bool_decide_eq_true_2 by done. by rewrite Ev. }
  split.
  - intros [H|(b & a & Eq & _)]; [by apply elem_of_nil in H|]. apply E. rewrite Eq. set_solver.
  - intros H. apply E in H as HL. right.
    assert (forall x, x ∈ L -> fst x = fst m -> x = m) as U.
    { intros x Hx Ex. apply E in Hx as [Hx _]. destruct H as [Hm _].
      apply elem_of_list_lookup in Hx as (i & Hi). apply elem_of_list_lookup in Hm as (k & Hk).
      assert (i = k) as <-; [|congruence]. eapply (NoDup_lookup (map fst remote)); [done| |].
      - rewrite list_lookup_fmap, Hi. cbn. reflexivity.
      - rewrite list_lookup_fmap, Hk. cbn. by rewrite Ex. }
    clearbody L. clear -HL U. assert (exists b a, L = b ++ m :: a /\ Forall (fun e => fst e <> fst m) b) as (b & a & Eq & Nb).
    { induction L as [|x L IH]; [by apply elem_of_nil in HL|].
      destruct (decide (fst x = fst m)) as [Ex|N].
      - exists [], L. split; [|constructor]. rewrite (U x); [done| |done]. apply elem_of_cons. by left.
      - apply elem_of_cons in HL as [->|HL]; [done|]. destruct IH as (b & a & -> & Nb); [done| |].
        + intros y Hy. apply U. apply elem_of_cons. by right.
        + exists (x :: b), a. split; [done|]. by constructor. }
    exists b, a. split; [done|]. split; [done|by intros z Hz%elem_of_nil].
Qed.
Print Assumptions C45_outdated.
Example C45_outdated_case :
  outdated [($"a", Version 1 0 0 [] []); ($"b", Version 2 0 0 [] [])] [($"b", Version 2 0 0 [] []); ($"a", Version 1 0 1 [] [])] =
  [($"a", Version 1 0 1 [] [])] /\ NoDup (map fst [($"b", Version 2 0 0 [] []); ($"a", Version 1 0 1 [] [])]).
Proof. split; [by vm_compute|]. repeat constructor; set_solver. Qed.

Print Assumptions C44_visits_exactly_what_is_needed.
Print Assumptions C44_closed.
Print Assumptions C44_schedules_only_what_is_needed.
Print Assumptions C44_terminates_without_cycles.
Print Assumptions C44_deterministic.
Print Assumptions C44_cycles_refuted.
Print Assumptions C44_minimum_version_refuted.
Print Assumptions C44_installed_version_refuted.
Print Assumptions C44_maximum_version_refuted.
Print Assumptions C44_missing_module_refuted.
Print Assumptions C45_check.
Print Assumptions C45_dependencies_refuted.
Print Assumptions C45_product_refuted.
