(** Map as a finite map, and sorting. *)
From Coq Require Import ZArith Sorting.
From Verif Require Import Base Coll_Model Coll_Spec Coll_Proofs Coll_Steps Coll_Runs.
Open Scope Z_scope.

Section Maps.
Context {K W : Type} (eqk : K -> K -> bool) (eqk_spec : forall a b, eqk a b = true <-> a = b).
Notation pair := (prod K W).
Implicit Types (h : heap pair) (ps : list (N * pair)) (c : coll).

(** An iterator in front of the items [ps]. *)
Definition before h it ps : Prop := chain h ps 0 /\
  ((it_cur it = 0%N /\ it_first it = start_of ps 0) \/
   (null (it_first it) = false /\ null (it_cur it) = false /\ next_of h (it_cur it) = Ok (start_of ps 0))).
Lemma before_end h it : before h it [] -> has_next h it = Ok false.
Proof.
  intros [_ [[E1 E2]|(E1 & E2 & E3)]]; unfold has_next.
  - rewrite E2. reflexivity.
  - rewrite E1, E2, E3. reflexivity.
Qed.
Lemma before_next h it a v ps : before h it ((a, v) :: ps) ->
  has_next h it = Ok true /\ exists it', next h it = Ok (v, it') /\ it_cur it' = a /\ before h it' ps.
Proof.
  intros [C B]. assert (Na : null a = false) by (unfold null; apply N.eqb_neq; cbn [chain] in C; tauto).
  destruct (get_head _ _ _ _ _ C) as (i & Hg & Hv & Hn). cbn [start_of] in B.
  assert (C' : chain h ps 0) by (cbn [chain] in C; tauto).
  destruct B as [[E1 E2]|(E1 & E2 & E3)].
  - assert (Hh : has_next h it = Ok true) by (unfold has_next; rewrite E1, E2, Na; reflexivity). split; [exact Hh|].
    exists (Iter a (it_first it)). unfold next. rewrite Hh, E1. cbn [rbind negb]. change (null 0) with true. cbn [rbind]. rewrite E2, Hg. cbn [rbind].
    rewrite Hv. split; [reflexivity|]. split; [reflexivity|]. split; [exact C'|]. right. cbn [it_first it_cur]. split; [exact Na|].
    split; [exact Na|]. unfold next_of. rewrite Hg. cbn [rbind]. rewrite Hn. reflexivity.
  - assert (Hh : has_next h it = Ok true) by (unfold has_next; rewrite E1, E2, E3; cbn [rbind]; rewrite Na; reflexivity). split; [exact Hh|].
    exists (Iter a (it_first it)). unfold next. rewrite Hh, E2, E3. cbn [rbind negb]. rewrite Hg. cbn [rbind].
    rewrite Hv. split; [reflexivity|]. split; [reflexivity|]. split; [exact C'|]. right. cbn [it_first it_cur]. split; [exact E1|].
    split; [exact Na|]. unfold next_of. rewrite Hg. cbn [rbind]. rewrite Hn. reflexivity.
Qed.

Notation keys ps := (map fst (vals ps)).
Lemma find_spec f h it ps k n : before h it ps -> (length ps < f)%nat ->
  (find_pair eqk f h it k n = Ok None /\ k ∉ keys ps) \/
  (exists p1 a v p2, ps = p1 ++ (a, (k, v)) :: p2 /\ k ∉ keys p1 /\ find_pair eqk f h it k n = Ok (Some (a, (k, v), n + Z.of_nat (length p1)))).
Proof.
  revert f it n. induction ps as [|[a [k' v]] ps IH]; intros f it n B L; (destruct f as [|f]; [cbn [length] in L; lia|]); cbn [find_pair].
  - left. rewrite (before_end _ _ B). split; [reflexivity|]. intros H. inversion H.
  - destruct (before_next _ _ _ _ _ B) as (Hh & it' & Hn & Hc & B'). rewrite Hh, Hn. cbn [rbind fst snd]. destruct (eqk k' k) eqn:E.
    + apply eqk_spec in E as ->. right. exists [], a, v, ps. split; [reflexivity|]. split; [intros H; inversion H|]. rewrite Hc. cbn [length].
      f_equal. f_equal. f_equal. lia.
    + assert (Nk : k <> k') by (intros ->; pose proof (proj2 (eqk_spec k' k') eq_refl); congruence).
      destruct (IH f it' (n + 1) B' ltac:(cbn [length] in L; lia)) as [[E1 E2]|(p1 & b & w & p2 & -> & E2 & E1)].
      * left. split; [exact E1|]. cbn [map fst snd]. rewrite not_elem_of_cons. auto.
      * right. exists ((a, (k', v)) :: p1), b, w, p2. split; [reflexivity|]. split; [cbn [map fst snd]; rewrite not_elem_of_cons; auto|].
        rewrite E1. cbn [length]. f_equal. f_equal. f_equal. lia.
Qed.
Lemma set_value_ok h p1 a v p2 e w : chain h (p1 ++ (a, v) :: p2) e -> a ∉ addrs p1 -> a ∉ addrs p2 ->
  exists h', set_value h a w = Ok h' /\ same_but h h' a /\ chain h' (p1 ++ (a, w) :: p2) e.
Proof.
  intros H H1 H2. apply chain_app in H as [C1 C2]. cbn [chain] in C2. destruct C2 as (N0 & [p Hp] & C2). unfold set_value, get. rewrite Hp.
  unfold null. replace (a =? 0)%N with false by (symmetry; apply N.eqb_neq; exact N0). cbn [rbind i_next i_prev]. eexists. split; [reflexivity|].
  split; [split; [intros b Hb; cbn [h_items]; rewrite lookup_insert_ne by congruence; reflexivity|reflexivity]|].
  apply chain_app. split.
  - eapply chain_frame; [|exact C1]. intros b Hb. cbn [h_items]. rewrite lookup_insert_ne; [reflexivity|]. intros ->. contradiction.
  - cbn [chain h_items]. split; [exact N0|]. split; [exists p; apply lookup_insert|].
    eapply chain_frame; [|exact C2]. intros b Hb. cbn [h_items]. rewrite lookup_insert_ne; [reflexivity|]. intros ->. contradiction.
Qed.

Definition map_rep h c ps (s : (K -> option W) * Z) : Prop :=
  inv h c ps /\ NoDup (keys ps) /\ snd s = Z.of_nat (length ps) /\ (forall k v, fst s k = Some v <-> (k, v) ∈ vals ps).
Lemma inv_frame h h' c ps : inv h c ps -> (forall a, a ∈ addrs ps -> h_items h' !! a = h_items h !! a) -> (h_free h <= h_free h')%N -> inv h' c ps.
Proof.
  intros [(Hc & Hf & Hs & Hl) (ND & F & F0)] E L. split.
  - split; [eapply chain_frame; eauto|]. repeat split; assumption.
  - split; [exact ND|]. split; [|lia]. intros a Ha. apply F in Ha. lia.
Qed.
Lemma map_framed : framed map_rep.
Proof. intros h h' c ps s (I & H) E L. split; [eapply inv_frame; eauto|exact H]. Qed.
Lemma map_below : below map_rep.
Proof. intros h c ps s a ([_ (_ & F & _)] & _) Ha. apply F. exact Ha. Qed.

Lemma keys_pair (k : K) (v : W) (ps : list (N * pair)) : (k, v) ∈ vals ps -> k ∈ keys ps.
Proof. intros H. apply elem_of_list_fmap. exists (k, v). split; [reflexivity|exact H]. Qed.
Lemma in_vals_mid (x y : pair) (p1 : list (N * pair)) a p2 : x ∈ vals (p1 ++ (a, y) :: p2) <-> x = y \/ x ∈ vals (p1 ++ p2).
Proof. rewrite !map_app. cbn [map snd]. rewrite !elem_of_app, elem_of_cons. tauto. Qed.
Lemma nodup_keys_mid (p1 : list (N * pair)) a k v p2 : NoDup (keys (p1 ++ (a, (k, v)) :: p2)) -> k ∉ keys (p1 ++ p2) /\ NoDup (keys (p1 ++ p2)).
Proof.
  rewrite !map_app. cbn [map snd fst]. rewrite <- Permutation_middle. intros H. apply NoDup_cons in H. exact H.
Qed.
Lemma not_key (m : K -> option W) (k : K) (ps : list (N * pair)) : (forall k v, m k = Some v <-> (k, v) ∈ vals ps) -> k ∉ keys ps -> m k = None.
Proof. intros H N0. destruct (m k) as [v|] eqn:E; [|reflexivity]. apply H in E. apply keys_pair in E. contradiction. Qed.

Lemma map_refines f n : Z.of_nat n <= int_max -> (n <= f)%nat -> refines (map_step eqk f) (fmap_step eqk) map_ok map_rep n.
Proof.
  intros Nm Nf h c ps [m sz] o HR Ho Ln. pose proof HR as (Iv & NDk & Hz & Hm). cbn [fst snd] in *. subst sz.
  assert (Lm : Z.of_nat (length ps) < int_max) by lia.
  pose proof Iv as [(Hc & Hf & Hs & Hl) So].
  assert (B : before h (iterator c) ps) by (split; [exact Hc|left; split; [reflexivity|exact Hf]]).
  assert (Same : forall a, map_step eqk f h c o = Ok (h, c, a) ->
    exists h' c' ps', map_step eqk f h c o = Ok (h', c', a) /\ map_rep h' c' ps' (m, Z.of_nat (length ps)) /\ evolves h ps h' ps' /\ (length ps' <= S (length ps))%nat).
  { intros a E. exists h, c, ps. split; [exact E|]. split; [exact HR|split; [apply evolves_same|lia]]. }
  assert (Find : forall k, (find_pair eqk f h (iterator c) k 0 = Ok None /\ m k = None /\ k ∉ keys ps) \/
    (exists p1 a v p2, ps = p1 ++ (a, (k, v)) :: p2 /\ m k = Some v /\ find_pair eqk f h (iterator c) k 0 = Ok (Some (a, (k, v), Z.of_nat (length p1))))).
  { intros k. destruct (find_spec f h (iterator c) ps k 0 B ltac:(lia)) as [[E N0]|(p1 & a & v & p2 & -> & N0 & E)].
    - left. split; [exact E|]. split; [eapply not_key; eauto|exact N0].
    - right. exists p1, a, v, p2. split; [reflexivity|]. split; [|exact E]. apply Hm. apply in_vals_mid. left. reflexivity. }
  destruct o as [k v|k v|k|k|k|k| | |]; cbn [fmap_step].
  - (* insert *)
    cbn [map_ok fst] in Ho. destruct (list_push_back_ok h c ps (k, v) Iv Lm) as (h' & c' & E & I' & Ev). cbn [map_step]. rewrite E. cbn [rbind fst snd].
    exists h', c', (ps ++ [(h_free h, (k, v))]). split; [reflexivity|]. split; [|split; [exact Ev|rewrite app_length; cbn [length]; lia]].
    assert (Nk : k ∉ keys ps).
    { intros H. apply elem_of_list_fmap in H as ([k' w] & -> & H). apply Hm in H. cbn [fst] in Ho. congruence. }
    split; [exact I'|]. split; [|split].
    + rewrite !map_app. cbn [map fst snd]. rewrite (Permutation_app_comm _ [k]). cbn [app]. constructor; assumption.
    + cbn [snd]. rewrite app_length. cbn [length]. lia.
    + intros k' w. cbn [fst]. rewrite (in_vals_mid (k', w) (k, v) ps (h_free h) []), app_nil_r. destruct (eqk k k') eqn:Ek.
      * apply eqk_spec in Ek as <-. split; [intros [= ->]; left; reflexivity|]. intros [[= ->]|H]; [reflexivity|]. apply Hm in H. congruence.
      * rewrite Hm. split; [auto|]. intros [[= -> ->]|H]; [|exact H]. pose proof (proj2 (eqk_spec k k) eq_refl). congruence.
  - (* put *)
    cbn [map_step]. destruct (Find k) as [(E & Em & _)|(p1 & a & w & p2 & -> & Em & E)]; rewrite E, Em; cbn [rbind fst]; [reflexivity|].
    pose proof So as (ND & F & F0). pose proof (nodup_mid _ _ _ _ ND) as [A1 A2]. cbn [fst snd].
    destruct (set_value_ok h p1 a (k, w) p2 0 (k, v) Hc A1 A2) as (h' & E' & [Ks Kf] & C'). rewrite E'. cbn [rbind].
    assert (Ea : addrs (p1 ++ (a, (k, v)) :: p2) = addrs (p1 ++ (a, (k, w)) :: p2)) by (rewrite !map_app; reflexivity).
    exists h', c, (p1 ++ (a, (k, v)) :: p2). split; [reflexivity|]. split; [|split].
    + split; [|split; [|split]].
      * split.
        -- split; [exact C'|]. split; [rewrite Hf, !start_app; reflexivity|]. split; [rewrite Hs, !app_length; reflexivity|]. intros _.
           rewrite Hl by (destruct p1; discriminate). destruct p2 as [|x p2]; [rewrite !end_snoc; reflexivity|].
           change (p1 ++ (a, (k, w)) :: x :: p2) with (p1 ++ [(a, (k, w))] ++ x :: p2). change (p1 ++ (a, (k, v)) :: x :: p2) with (p1 ++ [(a, (k, v))] ++ x :: p2).
           rewrite !app_assoc, !end_app by discriminate. reflexivity.
        -- split; [rewrite Ea; exact ND|]. split; [|lia]. intros b Hb. rewrite Ea in Hb. apply F in Hb. lia.
      * rewrite !map_app in *. exact NDk.
      * cbn [snd]. rewrite !app_length. reflexivity.
      * intros k' x. cbn [fst]. rewrite in_vals_mid. pose proof (nodup_keys_mid _ _ _ _ _ NDk) as [Nk _]. destruct (eqk k k') eqn:Ek.
        -- apply eqk_spec in Ek as <-. split; [intros [= ->]; left; reflexivity|]. intros [[= ->]|H]; [reflexivity|].
           apply keys_pair in H. contradiction.
        -- rewrite Hm, in_vals_mid. assert (k <> k') by (intros <-; pose proof (proj2 (eqk_spec k k) eq_refl); congruence).
           split; (intros [[= -> ->]|H0]; [congruence|right; exact H0]).
    + split; [lia|]. split; [intros b Hb; left; rewrite <- Ea; exact Hb|]. intros b Hb Hn. apply Ks. intros ->. apply Hn. rewrite map_app, elem_of_app. right. left.
    + rewrite !app_length. cbn [length]. lia.
  - (* remove *)
    cbn [map_step] in *. destruct (Find k) as [(E & Em & _)|(p1 & a & w & p2 & Eps & Em & E)]; rewrite E, Em in *; cbn [rbind] in *; [apply Same; reflexivity|].
    subst ps. destruct (erase_ok h c p1 a (k, w) p2 f Iv ltac:(lia)) as (h' & c' & E' & I' & Ev). rewrite E'. cbn [rbind fst snd].
    exists h', c', (p1 ++ p2). split; [reflexivity|]. split; [|split; [exact Ev|rewrite !app_length; cbn [length]; lia]].
    pose proof (nodup_keys_mid _ _ _ _ _ NDk) as [Nk NDk']. split; [exact I'|]. split; [exact NDk'|]. split.
    + cbn [snd]. rewrite !app_length. cbn [length]. lia.
    + intros k' x. cbn [fst]. destruct (eqk k k') eqn:Ek.
      * apply eqk_spec in Ek as <-. split; [discriminate|]. intros H. apply keys_pair in H. contradiction.
      * rewrite Hm, in_vals_mid. assert (k <> k') by (intros <-; pose proof (proj2 (eqk_spec k k) eq_refl); congruence).
        split; [intros [[= -> ->]|H0]; [congruence|exact H0]|auto].
  - cbn [map_step] in *. destruct (Find k) as [(E & Em & _)|(p1 & a & w & p2 & _ & Em & E)]; rewrite E, Em in *; cbn [rbind snd] in *; [reflexivity|]. apply Same; reflexivity.
  - cbn [map_step] in *. destruct (Find k) as [(E & Em & _)|(p1 & a & w & p2 & _ & Em & E)]; rewrite E, Em in *; cbn [rbind snd] in *; apply Same; reflexivity.
  - contradiction.
  - apply Same. cbn [map_step]. rewrite Hs. reflexivity.
  - apply Same. cbn [map_step]. rewrite Hs. reflexivity.
  - cbn [map_step]. rewrite (clear_ok h c ps 0 (inv_qrep _ _ _ Iv)). cbn [rbind]. exists h, (Coll 0 0 0), []. split; [reflexivity|].
    destruct So as (ND & F & F0). split; [|split; [apply evolves_sub; intros a Ha; inversion Ha|cbn [length]; lia]].
    split; [split; [repeat split; congruence|]; split; [constructor|]; split; [intros a Ha; inversion Ha|exact F0]|].
    split; [constructor|]. split; [reflexivity|]. intros k v. cbn [fst map]. split; [discriminate|intros H; inversion H].
Qed.
Theorem map_runs f m (os : list (nat * mop K W)) : Z.of_nat (length os) <= int_max -> (length os <= f)%nat ->
  all_ok (fmap_step eqk) map_ok (replicate m (fun _ => None, 0)) os ->
  sys_run (map_step eqk f) (start m) os = spec_run (fmap_step eqk) (replicate m (fun _ => None, 0)) os.
Proof.
  intros L1 L2. apply start_refines with (R := map_rep); [apply map_framed|apply map_below|apply map_refines; assumption|].
  split; [split; [repeat split; congruence|]; split; [constructor|]; split; [intros a Ha; inversion Ha|reflexivity]|].
  split; [constructor|]. split; [reflexivity|]. intros k v. cbn [fst map]. split; [discriminate|intros H; inversion H].
Qed.
End Maps.

(** ** Sorted insertion *)
Section Sorted.
Context {V : Type} (lt : V -> V -> bool).
Lemma put_sorted_perm v l : put_sorted lt v l ≡ₚ v :: l.
Proof.
  induction l as [|x l IH]; [reflexivity|]. cbn [put_sorted]. destruct (lt v x); [reflexivity|]. rewrite IH. apply Permutation_swap.
Qed.
Context (asym : forall x y, lt x y = true -> lt y x = false) (trans : forall x y z, lt y x = false -> lt z y = false -> lt z x = false).
Notation le := (fun x y => lt y x = false).
Lemma put_sorted_sorted v l : StronglySorted le l -> StronglySorted le (put_sorted lt v l).
Proof.
  induction l as [|x l IH]; intros H; [repeat constructor|]. cbn [put_sorted]. apply StronglySorted_inv in H as [H F]. destruct (lt v x) eqn:E.
  - constructor; [constructor; assumption|]. constructor; [apply asym; exact E|].
    apply List.Forall_forall. intros y Hy. rewrite List.Forall_forall in F. apply (trans v x y); [apply asym; exact E|apply F; exact Hy].
  - constructor; [apply IH; exact H|]. apply List.Forall_forall. intros y Hy.
    apply (Permutation_in _ (put_sorted_perm v l)) in Hy as [<-|Hy]; [exact E|]. rewrite List.Forall_forall in F. apply F. exact Hy.
Qed.
End Sorted.
