(** Lemmas about the package manager. *)
From stdpp Require Import relations.
From Verif Require Import Base Text_Model SemVer_Model Pkg_Model Pkg_Spec.

Section KeySet.
Context {A : Type} (key : A -> str).
Lemma place_elem x y l : y ∈ place key x l <-> y = x \/ y ∈ l.
Proof.
  induction l as [|z l IH]; cbn [place]; [set_solver|].
  destruct (str_ltb (key x) (key z)); set_solver.
Qed.
Lemma existsb_key x l : existsb (fun y => str_eqb (key y) (key x)) l = true <-> exists y, y ∈ l /\ key y = key x.
Proof.
  rewrite existsb_exists. unfold str_eqb. split; intros (y & H & E); exists y.
  - apply elem_of_list_In in H. split; [done|]. by apply bool_decide_eq_true in E.
  - apply elem_of_list_In in H. split; [done|]. by apply bool_decide_eq_true.
Qed.
Lemma set_add_elem x y l : y ∈ set_add key x l <-> y ∈ l \/ (y = x /\ forall z, z ∈ l -> key z <> key x).
Proof.
  unfold set_add. destruct (existsb _ l) eqn:E.
  - apply existsb_key in E as (z & Hz & Ez). split; [tauto|]. intros [H|[-> H]]; [done|]. by destruct (H z Hz).
  - rewrite place_elem. assert (forall z, z ∈ l -> key z <> key x) as N.
    { intros z Hz Ez. assert (existsb (fun y => str_eqb (key y) (key x)) l = true) as E' by (apply existsb_key; eauto).
      congruence. }
    tauto.
Qed.
Lemma set_add_keys x k l : k ∈ map key (set_add key x l) <-> k = key x \/ k ∈ map key l.
Proof.
  setoid_rewrite elem_of_list_fmap. split.
  - intros (y & -> & H). apply set_add_elem in H as [H|[-> _]]; eauto.
  - intros [->|(y & -> & H)].
    + destruct (existsb (fun y => str_eqb (key y) (key x)) l) eqn:E.
      * pose proof E as E'. apply existsb_key in E' as (z & Hz & Ez). exists z. split; [done|].
        unfold set_add. by rewrite E.
      * exists x. split; [done|]. unfold set_add. rewrite E. apply place_elem. by left.
    + exists y. split; [done|]. apply set_add_elem. by left.
Qed.
Lemma fold_set_elem l acc y :
  y ∈ fold_left (fun acc x => set_add key x acc) l acc <->
  y ∈ acc \/ (exists before after, l = before ++ y :: after /\ Forall (fun e => key e <> key y) before /\
             forall z, z ∈ acc -> key z <> key y).
Proof.
  revert acc. induction l as [|x l IH]; intros acc; cbn [fold_left].
  - split; [tauto|]. intros [H|(b & a & E & _)]; [done|]. by destruct b.
  - rewrite IH, set_add_elem. split.
    + intros [[H|[-> H]]|(b & a & -> & F & Z)].
      * by left.
      * right. exists [], l. repeat split; [constructor|done].
      * right. exists (x :: b), a. split; [done|].
        assert (key x <> key y) as Nx.
        { assert (key x ∈ map key (set_add key x acc)) as Hk by (apply set_add_keys; by left).
          apply elem_of_list_fmap in Hk as (z & -> & Hz). by apply Z. }
        split; [by constructor|]. intros z Hz. apply Z. apply set_add_elem. by left.
    + intros [H|(b & a & E & F & Z)]; [by left; left|].
      destruct b as [|x' b]; cbn in E; inversion E; subst.
      * left. right. done.
      * inversion F; subst. right. exists b, a. repeat split; [done|].
        intros z Hz. apply set_add_elem in Hz as [Hz|[-> _]]; auto.
Qed.
End KeySet.
Lemma set_of_lists ds d : d ∈ set_of d_name ds <-> lists ds d.
Proof.
  unfold set_of, lists. rewrite fold_set_elem. split.
  - intros [H|(b & a & E & F & _)]; [by apply elem_of_nil in H|]. eauto.
  - intros (b & a & E & F). right. exists b, a. repeat split; [done..|]. intros z Hz. by apply elem_of_nil in Hz.
Qed.
Lemma installed_spec local n : installed local n = true <-> n ∈ map fst local.
Proof.
  unfold installed. rewrite existsb_exists, elem_of_list_fmap. unfold str_eqb.
  split; intros (m & H & E).
  - apply bool_decide_eq_true in H as Hx || idtac. apply elem_of_list_In in H.
    apply bool_decide_eq_true in E. eauto.
  - exists m. split; [by apply elem_of_list_In|]. by apply bool_decide_eq_true.
Qed.

Section Prepare.
Context (server : str -> str -> option doc) (local : list module) (arch : str).
Notation prep := (prepare server local arch false).
Notation need := (needs server local).
Definition replay (c : gmap str (option doc)) (l : list module) : gmap str (option doc) :=
  foldl (fun c m => <[fst m := fetch server m]> c) c l.

(** What a finished call did: the documents it asked for and the modules it scheduled. *)
Definition did (want : module -> Prop) (sched : module -> Prop) (s s' : pst) : Prop :=
  exists new, p_asked s' = p_asked s ++ new /\ p_cache s' = replay (p_cache s) new /\
    (forall x, x ∈ new <-> want x) /\
    (forall n, n ∈ map fst (p_missing s') <-> n ∈ map fst (p_missing s) \/ exists x, sched x /\ fst x = n) /\
    (forall x, x ∈ p_missing s -> x ∈ p_missing s') /\
    (forall x, x ∈ p_missing s' -> x ∈ p_missing s \/ sched x).

Lemma prepare_deps_did n (ds : list dep) s s' :
  (forall m s s', prep n m s = Ok s' -> did (fun x => rtc need m x) (fun x => tc need m x) s s') ->
  prepare_deps local (prep n) ds s = Ok s' ->
  let want x := exists d, d ∈ ds /\ d_name d ∉ map fst local /\ rtc need (dep_module d) x in
  did want want s s'.
Proof.
  intros IH. revert s. induction ds as [|d ds IHd]; intros s; cbn [prepare_deps].
  - intros [= <-]. exists []. rewrite app_nil_r. repeat split; try done.
    + intros H. by apply elem_of_nil in H.
    + intros (d & H & _). by apply elem_of_nil in H.
    + by left.
    + intros [H|(x & (d & H & _) & _)]; [done|]. by apply elem_of_nil in H.
    + by left.
  - destruct (installed local (d_name d)) eqn:I.
    + apply installed_spec in I. intros H. apply IHd in H as (new & E1 & E2 & W & K & L & M). cbv zeta in *.
      assert (forall x, (exists d0, d0 ∈ ds /\ d_name d0 ∉ map fst local /\ rtc need (dep_module d0) x) <->
              (exists d0, d0 ∈ d :: ds /\ d_name d0 ∉ map fst local /\ rtc need (dep_module d0) x)) as EQ.
      { intros x. split; intros (d0 & H0 & H1 & H2); exists d0; repeat split; try done.
        - by apply elem_of_list_further.
        - apply elem_of_cons in H0 as [->|H0]; done. }
      exists new. split; [done|]. split; [done|]. split; [intros x; by rewrite W, EQ|]. split; [|split; [done|]].
      * intros k. rewrite K. split; (intros [H|(y & Hy & Ey)]; [by left|right]); exists y; (split; [|done]); by apply EQ.
      * intros x Hx. rewrite <- EQ. by apply M.
    + assert (d_name d ∉ map fst local) as NI by (rewrite <- installed_spec; congruence).
      destruct (prep n (dep_module d) _) as [s1| | |] eqn:P; cbn [rbind]; try done.
      intros H. apply IHd in H as (new2 & E1 & E2 & W & K & L & M).
      apply IH in P as (new1 & F1 & F2 & V & Q & R & T). cbn [p_asked p_cache p_missing] in *. cbv zeta in *.
      assert (forall x, rtc need (dep_module d) x <-> x = dep_module d \/ tc need (dep_module d) x) as RT.
      { intros x. split.
        - intros Hr. inversion Hr; subst; [by left|]. right. eapply tc_rtc_r; [by apply tc_once|done].
        - intros [->|Ht]; [done|]. by apply tc_rtc. }
      assert (forall x, (exists d0, d0 ∈ d :: ds /\ d_name d0 ∉ map fst local /\ rtc need (dep_module d0) x) <->
              rtc need (dep_module d) x \/
              (exists d0, d0 ∈ ds /\ d_name d0 ∉ map fst local /\ rtc need (dep_module d0) x)) as EQ.
      { intros x. split.
        - intros (d0 & H0 & H1 & H2). apply elem_of_cons in H0 as [->|H0]; [by left|right]; eauto.
        - intros [H0|(d0 & H0 & H1 & H2)].
          + exists d. repeat split; [|done..]. by apply elem_of_list_here.
          + exists d0. repeat split; [|done..]. by apply elem_of_list_further. }
      exists (new1 ++ new2). split; [by rewrite E1, F1, app_assoc|].
      split; [by unfold replay in *; rewrite foldl_app, E2, F2|].
      split; [intros x; by rewrite elem_of_app, V, W, EQ|]. split; [|split].
      * intros k. rewrite K, Q. unfold add_module. rewrite set_add_keys. split.
        -- intros [[[->|H]|(x & Hx & <-)]|(x & Hx & <-)].
           ++ right. exists (dep_module d). split; [|done]. apply EQ. left. done.
           ++ by left.
           ++ right. exists x. split; [|done]. apply EQ. left. apply RT. by right.
           ++ right. exists x. split; [|done]. apply EQ. by right.
        -- intros [H|(x & Hx & <-)]; [tauto|]. apply EQ in Hx as [Hx|Hx].
           ++ apply RT in Hx as [->|Hx]; [tauto|]. left. right. eauto.
           ++ right. eauto.
      * intros x Hx. apply L, R. unfold add_module. apply set_add_elem. by left.
      * intros x Hx. apply M in Hx as [Hx|Hx]; [|right; apply EQ; by right].
        apply T in Hx as [Hx|Hx]; [|right; apply EQ; left; apply RT; by right].
        unfold add_module in Hx. apply set_add_elem in Hx as [Hx|[-> _]]; [by left|].
        right. apply EQ. by left.
Qed.

Lemma prepare_did n m s s' : prep n m s = Ok s' -> did (fun x => rtc need m x) (fun x => tc need m x) s s'.
Proof.
  revert m s s'. induction n as [|n IH]; intros m s s'; cbn [prepare]; [done|].
  assert (forall st, (forall x, ~ need m x) -> st = Pst (p_missing s) (<[fst m := fetch server m]> (p_cache s)) (p_asked s ++ [m]) ->
    did (fun x => rtc need m x) (fun x => tc need m x) s st) as NONE.
  { intros st N ->. exists [m]. cbn [p_asked p_cache p_missing]. split; [done|]. split; [done|]. split.
    - intros x. rewrite elem_of_list_singleton. split; [by intros ->|]. intros H. inversion H as [|? ? ? Hn]; subst; [done|]. by apply N in Hn.
    - assert (forall x, ~ tc need m x) as NT.
      { intros x H. inversion H as [? ? Hn|? ? ? Hn]; subst; by apply (N _ Hn). }
      split; [|split; [done|by left]]. intros k. split; [by left|]. intros [H|(x & Hx & _)]; [done|]. by apply NT in Hx. }
  destruct (fetch server m) as [j|] eqn:F.
  2: { intros [= <-]. apply NONE; [|done]. intros x H. inversion H; subst. unfold fetch in F. congruence. }
  destruct (_ && _); [done|]. intros H.
  apply prepare_deps_did in H as (new & E1 & E2 & W & K & L & M); [|done].
  cbn [p_asked p_cache p_missing] in *. clear NONE. cbv zeta in *.
  assert (forall x, (exists d, d ∈ set_of d_name (j_deps j) /\ d_name d ∉ map fst local /\ rtc need (dep_module d) x) <-> tc need m x) as EQ.
  { intros x. split.
    - intros (d & H1 & H2 & H3). apply set_of_lists in H1. eapply tc_rtc_r; [|exact H3]. apply tc_once. by econstructor.
    - intros Ht. assert (exists y, need m y /\ rtc need y x) as (y & Hy & Hr).
      { inversion Ht as [? ? Hn|? z ? Hn Hm]; subst; [exists x; by split|]. exists z. split; [exact Hn|]. by apply tc_rtc. }
      inversion Hy; subst. unfold fetch in F. assert (j0 = j) as -> by congruence.
      exists d. split; [by apply set_of_lists|]. split; done. }
  exists (m :: new). split; [by rewrite E1, <- app_assoc|]. split; [by rewrite E2; unfold replay; cbn [foldl]; rewrite F|].
  split; [|split; [|split; [done|]]].
  - intros x. rewrite elem_of_cons, W, EQ. split.
    + intros [->|H]; [done|]. by apply tc_rtc.
    + intros H. inversion H; subst; [by left|]. right. eapply tc_rtc_r; [by apply tc_once|done].
  - intros k. rewrite K. split; (intros [H|(y & Hy & Ey)]; [by left|right]); exists y; (split; [|done]); by apply EQ.
  - intros x Hx. apply M in Hx as [Hx|Hx]; [by left|right]. by apply EQ.
Qed.

(** More fuel gives the same result. *)
Lemma prepare_deps_mono rec rec' ds s s' :
  (forall m s s', rec m s = Ok s' -> rec' m s = Ok s') ->
  prepare_deps local rec ds s = Ok s' -> prepare_deps local rec' ds s = Ok s'.
Proof.
  intros H. revert s. induction ds as [|d ds IH]; intros s; cbn [prepare_deps]; [done|].
  destruct (installed local (d_name d)); [apply IH|].
  destruct (rec _ _) as [s1| | |] eqn:E; cbn [rbind]; try done. apply H in E. rewrite E. cbn [rbind]. apply IH.
Qed.
Lemma prepare_mono n n' m s s' : prep n m s = Ok s' -> (n <= n')%nat -> prep n' m s = Ok s'.
Proof.
  revert n' m s s'. induction n as [|n IH]; intros n' m s s'; [done|]. intros H L.
  destruct n' as [|n']; [lia|]. cbn [prepare] in *. destruct (fetch server m); [|done].
  destruct (_ && _); [done|]. eapply prepare_deps_mono; [|exact H]. intros. apply IH; [done|lia].
Qed.

(** A finished call had enough fuel for every path. *)
Lemma prepare_deps_each n ds s s' d :
  prepare_deps local (prep n) ds s = Ok s' -> d ∈ ds -> d_name d ∉ map fst local -> exists t t', prep n (dep_module d) t = Ok t'.
Proof.
  revert s. induction ds as [|e ds IH]; intros s; cbn [prepare_deps]; [by intros _ H%elem_of_nil|].
  intros H He NI. apply elem_of_cons in He as [->|He].
  - destruct (installed local (d_name e)) eqn:I; [by apply installed_spec in I|].
    destruct (prep n _ _) as [s1| | |] eqn:E; try done. eauto.
  - destruct (installed local (d_name e)); [by eapply IH|].
    destruct (prep n _ _) as [s1| | |] eqn:E; try done. cbn [rbind] in H. by eapply IH.
Qed.
Lemma prepare_paths n m s s' x k : prep n m s = Ok s' -> nsteps need k m x -> (k < n)%nat.
Proof.
  revert m s s' k. induction n as [|n IH]; intros m s s' k; cbn [prepare]; [done|].
  intros H Hk. inversion Hk as [|k' a y b Hy Hn]; subst; [lia|].
  inversion Hy; subst. unfold fetch in H. rewrite H0 in H. destruct (_ && _); [done|].
  apply set_of_lists in H1. eapply prepare_deps_each in H as (t & t' & Ht); [|done..].
  specialize (IH _ _ _ _ Ht Hn). lia.
Qed.

(** Well-founded needs are enough to finish. *)
Lemma prepare_deps_ends ds :
  (forall d, d ∈ ds -> d_name d ∉ map fst local -> exists n, forall n' s, (n <= n')%nat -> prep n' (dep_module d) s <> Fuel) ->
  exists n, forall n' s, (n <= n')%nat -> prepare_deps local (prep n') ds s <> Fuel.
Proof.
  induction ds as [|d ds IH]; intros H; [exists 0%nat; done|].
  destruct IH as (n1 & H1); [intros e He; apply H; by apply elem_of_list_further|].
  destruct (installed local (d_name d)) eqn:I.
  - exists n1. intros n' t L. cbn [prepare_deps]. rewrite I. by apply H1.
  - destruct (H d) as (n2 & H2); [by apply elem_of_list_here|by rewrite <- installed_spec, I|].
    exists (n1 + n2)%nat. intros n' t L. cbn [prepare_deps]. rewrite I.
    destruct (prep n' _ _) as [s1| | |] eqn:E; cbn [rbind]; try done.
    + apply H1. lia.
    + exfalso. eapply H2; [|exact E]. lia.
Qed.
Lemma prepare_ends m : Acc (fun a b => need b a) m -> exists n, forall n' s, (n <= n')%nat -> prep n' m s <> Fuel.
Proof.
  induction 1 as [m _ IH]. destruct (fetch server m) as [j|] eqn:F.
  - destruct (prepare_deps_ends (set_of d_name (j_deps j))) as (n & Hn).
    { intros d Hd NI. apply IH. apply set_of_lists in Hd. by econstructor. }
    exists (S n). intros [|n'] s L; [lia|]. cbn [prepare]. rewrite F. destruct (_ && _); [done|]. apply Hn. lia.
  - exists 1%nat. intros [|n'] s L; [lia|]. cbn [prepare]. by rewrite F.
Qed.
End Prepare.

(** ** Finite repositories without cycles *)
Lemma acyclic_acc {A} (R : A -> A -> Prop) (all : list A) (m : A) :
  (forall x, rtc R m x -> x ∈ all) -> (forall x, ~ tc R x x) -> Acc (fun a b => R b a) m.
Proof.
  intros F C.
  assert (forall B seen x, rtc R m x -> NoDup seen -> (forall s, s ∈ seen -> s ∈ all /\ tc R s x) ->
    (length all - length seen <= B)%nat -> Acc (fun a b => R b a) x) as G.
  { induction B as [|B IH]; intros seen x Hx ND S L.
    - exfalso. assert (NoDup (x :: seen)) as ND'.
      { constructor; [|done]. intros H. apply S in H as [_ H]. by apply C in H. }
      assert (x :: seen ⊆ all) as SUB.
      { intros y Hy. apply elem_of_cons in Hy as [->|Hy]; [by apply F|]. by apply S. }
      apply NoDup_submseteq in SUB; [|done]. apply submseteq_length in SUB. cbn in SUB. lia.
    - constructor. intros y Hy. apply (IH (x :: seen)).
      + eapply rtc_r; done.
      + constructor; [|done]. intros H. apply S in H as [_ H]. by apply C in H.
      + intros s Hs. apply elem_of_cons in Hs as [->|Hs].
        * split; [by apply F|by apply tc_once].
        * destruct (S s Hs) as [H1 H2]. split; [done|]. by eapply tc_r.
      + cbn [length]. lia. }
  apply (G (length all) [] m); [done|constructor| |lia]. intros s Hs. by apply elem_of_nil in Hs.
Qed.

(** ** Restrictions *)
Lemma check_spec rs m : check_restrictions rs m = true <-> forall r, r ∈ rs -> r_name r = fst m -> within r (snd m).
Proof.
  induction rs as [|r rs IH]; cbn [check_restrictions].
  - split; [|done]. intros _ r H. by apply elem_of_nil in H.
  - assert (forall P : restriction -> Prop, (forall x, x ∈ r :: rs -> P x) <-> P r /\ forall x, x ∈ rs -> P x) as AC.
    { intros P. setoid_rewrite elem_of_cons. naive_solver. }
    rewrite AC. unfold str_eqb. destruct (bool_decide_reflect (r_name r = fst m)) as [E|E].
    + assert (within r (snd m) <-> (valid_text (r_min r) && version_ltb (snd m) (ver (r_min r)) = false) /\
               (valid_text (r_max r) && version_ltb (ver (r_max r)) (snd m) = false)) as W.
      { unfold within, limit, valid_text, ver.
        destruct (parse_version (r_min r)) as [lo okl], (parse_version (r_max r)) as [hi okh]. cbn [fst snd].
        destruct okl, okh; cbn [andb]; naive_solver. }
      destruct (valid_text (r_min r) && version_ltb (snd m) (ver (r_min r))).
      { split; [done|]. intros [H _]. specialize (H E). apply W in H as [H _]. done. }
      destruct (valid_text (r_max r) && version_ltb (ver (r_max r)) (snd m)).
      { split; [done|]. intros [H _]. specialize (H E). apply W in H as [_ H]. done. }
      rewrite IH. tauto.
    + rewrite IH. tauto.
Qed.

Lemma split_colon n v : chr 58 ∉ n -> split_by (n ++ chr 58 :: v) (chr 58) = (n, v).
Proof.
  intros H. unfold split_by. assert (find_first (chr 58) (n ++ chr 58 :: v) = Some (length n)) as ->.
  { induction n as [|x n IH]; cbn [find_first app length]; [by rewrite bool_decide_eq_true_2|].
    apply not_elem_of_cons in H as [N H]. rewrite bool_decide_eq_false_2 by congruence. by rewrite IH. }
  f_equal; [by rewrite take_app|]. rewrite <- (app_nil_r (n ++ _)), <- app_assoc. 
  replace (S (length n)) with (length n + 1)%nat by lia. rewrite drop_add_app by done. cbn. by rewrite app_nil_r.
Qed.
Lemma split_no_colon n : chr 58 ∉ n -> split_by n (chr 58) = (n, []).
Proof.
  intros H. unfold split_by. assert (find_first (chr 58) n = None) as ->; [|done].
  induction n as [|x n IH]; cbn [find_first]; [done|].
  apply not_elem_of_cons in H as [N H]. rewrite bool_decide_eq_false_2 by congruence. by rewrite IH.
Qed.
Lemma asks_requested remote p m : asks remote p m -> fst (requested remote p) = m.
Proof.
  intros [n v N V|n v N I E U]; unfold requested.
  - rewrite split_colon by done. by rewrite bool_decide_eq_false_2.
  - rewrite split_no_colon by done. cbv beta iota. destruct (bool_decide_reflect ([] =@{str} [])) as [_|C]; [|done].
    destruct (get_module n remote) as [x|] eqn:F; unfold get_module in F.
    + apply find_some in F as [F1 F2]. unfold str_eqb in F2. apply bool_decide_eq_true in F2.
      apply elem_of_list_In in F1. rewrite (U x F1 F2). cbn [fst snd]. unfold ver. by rewrite E.
    + exfalso. apply elem_of_list_In in I. eapply find_none in F; [|exact I]. cbn [fst] in F.
      unfold str_eqb in F. by rewrite bool_decide_eq_true_2 in F.
Qed.

Lemma fold_add_keys l acc k : k ∈ map fst (fold_left (fun acc m => add_module m acc) l acc) <->
  k ∈ map fst l \/ k ∈ map fst acc.
Proof.
  revert acc. induction l as [|x l IH]; intros acc; cbn [fold_left map].
  - split; [by right|]. intros [H|H]; [by apply elem_of_nil in H|done].
  - rewrite IH. unfold add_module. rewrite set_add_keys, elem_of_cons. tauto.
Qed.

Section Install.
Context (server : str -> str -> option doc) (local : list module) (arch : str).
Notation need := (needs server local).
Lemma prepare_all_did n ms s s' :
  prepare_all server local arch false n ms s = Ok s' ->
  did server (fun x => exists m, m ∈ ms /\ rtc need m x) (fun x => exists m, m ∈ ms /\ tc need m x) s s'.
Proof.
  revert s. induction ms as [|m ms IH]; intros s; cbn [prepare_all].
  - intros [= <-]. exists []. rewrite app_nil_r. split; [done|]. split; [done|].
    assert (forall P, ~ exists m : module, m ∈ [] /\ P m) as N by (intros P (m & H & _); by apply elem_of_nil in H).
    split; [intros x; split; [by intros H%elem_of_nil|by intros H%N]|].
    split; [|split; [done|by left]]. intros k. split; [by left|]. intros [H|(x & H & _)]; [done|by apply N in H].
  - destruct (prepare _ _ _ _ n m s) as [s1| | |] eqn:E; cbn [rbind]; try done. intros H.
    apply prepare_did in E as (new1 & F1 & F2 & V & Q & R & T).
    apply IH in H as (new2 & E1 & E2 & W & K & L & M).
    assert (forall (P : module -> Prop), (exists m', m' ∈ m :: ms /\ P m') <-> P m \/ exists m', m' ∈ ms /\ P m') as EX.
    { intros P. setoid_rewrite elem_of_cons. naive_solver. }
    exists (new1 ++ new2). split; [by rewrite E1, F1, app_assoc|].
    split; [by unfold replay in *; rewrite foldl_app, E2, F2|].
    split; [intros x; by rewrite elem_of_app, V, W, EX|]. split; [|split; [by eauto|]].
    + intros k. rewrite K, Q. setoid_rewrite EX. naive_solver.
    + intros x Hx. rewrite EX. apply M in Hx as [Hx|Hx]; [|tauto]. apply T in Hx. tauto.
Qed.
Lemma replay_cache c l n : replay server c l !! n = c !! n /\ (forall x, x ∈ l -> fst x <> n) \/
  exists x, x ∈ l /\ fst x = n /\ replay server c l !! n = Some (fetch server x).
Proof.
  unfold replay. induction l as [|x l IH] using rev_ind; [left; split; [done|]; by intros x H%elem_of_nil|].
  rewrite foldl_app. cbn [foldl]. destruct (decide (fst x = n)) as [E|E].
  - right. exists x. split; [set_solver|]. split; [done|]. rewrite E. apply lookup_insert.
  - rewrite lookup_insert_ne by done. destruct IH as [[IH N]|(y & Hy & Ey & IH)].
    + left. split; [done|]. intros y Hy. apply elem_of_app in Hy as [Hy|Hy]; [by apply N|].
      by apply elem_of_list_singleton in Hy as ->.
    + right. exists y. split; [set_solver|]. done.
Qed.
End Install.

(** ** Maximum versions are never looked at *)
Lemma place_map {A} (key : A -> str) (g : A -> A) x l : (forall a, key (g a) = key a) ->
  place key (g x) (map g l) = map g (place key x l).
Proof.
  intros G. induction l as [|y l IH]; cbn [map place]; [done|]. rewrite !G. destruct (str_ltb _ _); [done|].
  cbn [map]. by rewrite IH.
Qed.
Lemma set_add_map {A} (key : A -> str) (g : A -> A) x l : (forall a, key (g a) = key a) ->
  set_add key (g x) (map g l) = map g (set_add key x l).
Proof.
  intros G. unfold set_add.
  assert (existsb (fun y => str_eqb (key y) (key (g x))) (map g l) = existsb (fun y => str_eqb (key y) (key x)) l) as ->.
  { rewrite G. induction l as [|y l IH]; cbn [existsb map]; [done|]. by rewrite G, IH. }
  destruct (existsb _ l); [done|]. by apply place_map.
Qed.
Lemma set_of_map {A} (key : A -> str) (g : A -> A) l : (forall a, key (g a) = key a) ->
  set_of key (map g l) = map g (set_of key l).
Proof.
  intros G. unfold set_of. change (@nil A) with (map g []) at 1. generalize (@nil A) as acc.
  induction l as [|x l IH]; intros acc; cbn [map fold_left]; [done|]. by rewrite set_add_map, IH.
Qed.
Section OtherMax.
Context (f : dep -> str) (server : str -> str -> option doc) (local : list module) (arch : str).
Notation server2 := (other_max f server).
Definition brief (o : option (option doc)) : option (option (bool * str)) :=
  option_map (option_map (fun j => (j_target j, j_version j))) o.
Definition same (s t : pst) : Prop :=
  p_missing s = p_missing t /\ p_asked s = p_asked t /\ forall n, brief (p_cache s !! n) = brief (p_cache t !! n).
Lemma same_step m s t : same s t ->
  same (Pst (p_missing s) (<[fst m := fetch server m]> (p_cache s)) (p_asked s ++ [m]))
       (Pst (p_missing t) (<[fst m := fetch server2 m]> (p_cache t)) (p_asked t ++ [m])).
Proof.
  intros (A & B & C). split; [done|]. split; [by cbn; rewrite B|]. intros n. cbn [p_cache].
  destruct (decide (fst m = n)) as [<-|N]; [|by rewrite !lookup_insert_ne by done].
  rewrite !lookup_insert. unfold fetch, other_max. destruct (server _ _); done.
Qed.
Lemma deps_same rec1 rec2 ds s t s' :
  (forall m s t s', same s t -> rec1 m s = Ok s' -> exists t', rec2 m t = Ok t' /\ same s' t') ->
  same s t -> prepare_deps local rec1 ds s = Ok s' ->
  exists t', prepare_deps local rec2 (map (fun d => Dep (d_name d) (d_min d) (f d)) ds) t = Ok t' /\ same s' t'.
Proof.
  intros R. revert s t. induction ds as [|d ds IH]; intros s t S; cbn [prepare_deps map]; [intros [= <-]; eauto|].
  cbn [d_name]. destruct (installed local (d_name d)); [by apply IH|]. destruct S as (A & B & C).
  destruct (rec1 _ _) as [s1| | |] eqn:E; cbn [rbind]; try done. intros H.
  change (dep_module (Dep (d_name d) (d_min d) (f d))) with (dep_module d).
  eapply (R _ _ (Pst (add_module (dep_module d) (p_missing t)) (p_cache t) (p_asked t))) in E as (t1 & E1 & S1).
  - rewrite E1. cbn [rbind]. by eapply IH.
  - split; [cbn; by rewrite A|]. split; done.
Qed.
Lemma prepare_same n m s t s' : same s t -> prepare server local arch false n m s = Ok s' ->
  exists t', prepare server2 local arch false n m t = Ok t' /\ same s' t'.
Proof.
  revert m s t s'. induction n as [|n IH]; intros m s t s' S; cbn [prepare]; [done|].
  pose proof (same_step m s t S) as S1. set (c2 := fetch server2 m) in *.
  assert (c2 = option_map (fun j => Doc (j_arch j) (map (fun d => Dep (d_name d) (d_min d) (f d)) (j_deps j)) (j_version j) (j_target j))
    (fetch server m)) as E2 by done.
  destruct (fetch server m) as [j|] eqn:F; cbn [option_map] in E2; rewrite E2 in S1 |- *; clear c2 E2.
  - cbn [j_arch]. destruct (_ && _); [done|]. intros H. cbn [j_deps]. rewrite set_of_map by done.
    eapply deps_same; [|exact S1|exact H]. intros. by eapply IH.
  - intros [= <-]. eexists. split; [reflexivity|done].
Qed.
Lemma prepare_all_same n ms s t s' : same s t -> prepare_all server local arch false n ms s = Ok s' ->
  exists t', prepare_all server2 local arch false n ms t = Ok t' /\ same s' t'.
Proof.
  revert s t. induction ms as [|m ms IH]; intros s t S; cbn [prepare_all]; [intros [= <-]; eauto|].
  destruct (prepare server local arch false n m s) as [s1| | |] eqn:E; cbn [rbind]; try done. intros H.
  eapply prepare_same in E as (t1 & -> & S1); [|exact S]. cbn [rbind]. by eapply IH.
Qed.
Lemma install_other_max n rs remote force params s' out :
  install server local arch false n rs remote force params fresh = Ok (s', out) ->
  exists s2, install server2 local arch false n rs remote force params fresh = Ok (s2, out) /\
    p_missing s2 = p_missing s' /\ p_asked s2 = p_asked s'.
Proof.
  unfold install. destruct params as [|p ps]; [intros [= <- <-]; eauto|]. set (reqs := map (requested remote) (p :: ps)). clearbody reqs.
  destruct (prepare_all server local arch false n (map fst reqs) fresh) as [s1| | |] eqn:E; cbn [rbind]; try done.
  eapply prepare_all_same in E as (t1 & -> & A & B & C); [|by repeat split]. cbn [rbind].
  intros [= <- <-]. eexists. split; [f_equal; apply f_equal2; [reflexivity|]|cbn; by rewrite A, B].
  rewrite <- A. destruct (forallb _ _); [|done].
  assert (forall q ms, install_module (Pst ms (p_cache t1) (p_asked t1)) q = install_module (Pst ms (p_cache s1) (p_asked s1)) q) as I.
  { intros q ms. unfold install_module. cbn [p_cache]. specialize (C q). revert C.
    destruct (p_cache s1 !! q) as [[j1|]|], (p_cache t1 !! q) as [[j2|]|]; cbn; try done. intros [= -> ->]. done. }
  apply flat_map_ext. intros q. rewrite !I. done.
Qed.
End OtherMax.
