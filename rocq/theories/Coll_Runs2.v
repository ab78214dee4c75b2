(** Stack, Queue, Set and Map. *)
From Coq Require Import ZArith Sorting.
From Verif Require Import Base Coll_Model Coll_Spec Coll_Proofs Coll_Steps Coll_Runs.
Open Scope Z_scope.

Section Stacks.
Context {V : Type} (eqv : V -> V -> bool).
Implicit Types (h : heap V) (ps : list (N * V)) (c : coll).

Definition stack_rep h c ps (s : list V * bool) : Prop := seq_rep h c ps (rev (fst s), snd s).
Lemma stack_framed : framed stack_rep.
Proof. intros h h' c ps s. apply seq_framed. Qed.
Lemma stack_below : below stack_rep.
Proof. intros h c ps s. apply seq_below. Qed.
Lemma rev_removelast (l : list V) v : removelast (rev (v :: l)) = rev l.
Proof. cbn [rev]. apply removelast_last. Qed.
Lemma existsb_rev (g : V -> bool) l : existsb g (rev l) = existsb g l.
Proof.
  induction l as [|x l IH]; [reflexivity|]. cbn [rev existsb]. rewrite existsb_app, IH. cbn [existsb]. rewrite orb_false_r. apply orb_comm.
Qed.
Lemma pop_match (l : list V) : l <> [] -> match l with [] => outside | _ :: _ => Ok (removelast l, @AUnit V) end = Ok (removelast l, AUnit).
Proof. destruct l; congruence. Qed.
Lemma empty_match (l : list V) : l <> [] -> match l with [] => true | _ :: _ => false end = false.
Proof. destruct l; congruence. Qed.
Lemma stack_refines f n : Z.of_nat n <= int_max -> (n <= f)%nat ->
  refines (stack_step eqv f) (lifo_step' eqv) stack_ok stack_rep n.
Proof.
  intros Nm Nf h c ps [l d] o HR Ho Ln. unfold stack_rep in HR. cbn [fst snd] in HR.
  pose proof (seq_refines eqv KVector f n Nm Nf h c ps (rev l, d)) as SR. unfold lifo_step'. cbn [fst snd]. unfold seq_step' in SR. cbn [fst snd] in SR.
  assert (Fl : rev l = [] <-> l = []) by (split; [intros E; rewrite <- (rev_involutive l), E; reflexivity|intros ->; reflexivity]).
  destruct o as [v| | |i|i|v|v| | |]; cbn [lifo_step].
  - specialize (SR (PushBack v) HR ltac:(cbn; intros E; apply Fl, Ho, E) Ln). cbn [seq_step popped] in SR.
    destruct SR as (h' & c' & ps' & E & R' & G). exists h', c', ps'. split; [exact E|]. split; [exact R'|exact G].
  - pose proof (SR PopBack HR I Ln) as S1. cbn [seq_step popped] in S1. destruct l as [|v l].
    + destruct (seq_rep_q _ _ _ _ HR) as (p1 & e' & (Q1 & Q2 & Q3) & Q4). cbn [fst] in Q4. symmetry in Q4. apply map_eq_nil in Q4 as ->.
      cbn [stack_step]. unfold pop. rewrite Q3. reflexivity.
    + cbn [stack_ok] in Ho. destruct d; [specialize (Ho eq_refl); discriminate|].
      pose proof (SR Last HR eq_refl Ln) as S2. cbn [seq_step popped] in S2.
      assert (Nr : rev (v :: l) <> []) by (intros E; apply Fl in E; discriminate). rewrite (pop_match _ Nr), rev_removelast in S1. cbn [rev] in S2. rewrite last_snoc in S2.
      destruct S1 as (h' & c' & ps' & E & R' & G). destruct S2 as (h2 & c2 & ps2 & E2 & _). cbn [stack_step step] in *.
      unfold pop. unfold last_ in E2. assert (c_size c <=? 0 = false) as Z0.
      { unfold pop_back in E. destruct (c_size c <=? 0); [discriminate|reflexivity]. }
      rewrite Z0. destruct (c_size c =? 0); [discriminate|].
      destruct (get h (c_last c)) as [it| | |]; cbn [rbind] in *; try discriminate. injection E2 as -> -> ->.
      destruct (pop_back h2 c2) as [c3| | |]; cbn [rbind] in *; try discriminate. injection E as -> ->.
      exists h', c', ps'. split; [reflexivity|]. split; [exact R'|exact G].
  - (* peek *)
    destruct l as [|v l].
    + destruct (seq_rep_q _ _ _ _ HR) as (p1 & e' & (Q1 & Q2 & Q3) & Q4). cbn [fst] in Q4. symmetry in Q4. apply map_eq_nil in Q4 as ->.
      cbn [stack_step]. rewrite Q3. reflexivity.
    + cbn [stack_ok] in Ho. destruct d; [specialize (Ho eq_refl); discriminate|].
      pose proof (SR Last HR eq_refl Ln) as S2. cbn [seq_step popped rev] in S2. rewrite last_snoc in S2.
      destruct S2 as (h2 & c2 & ps2 & E2 & R2 & G2). cbn [stack_step step] in *.
      destruct (seq_rep_q _ _ _ _ HR) as (p1 & e' & (Q1 & Q2 & Q3) & Q4). cbn [fst] in Q4.
      assert (P1 : (0 < length p1)%nat) by (rewrite <- (map_length snd p1), <- Q4, rev_length; cbn [length]; lia).
      unfold last_ in E2. rewrite Q3 in *. replace (Z.of_nat (length p1) <=? 0) with false by (symmetry; apply Z.leb_gt; lia).
      replace (Z.of_nat (length p1) =? 0) with false in E2 by (symmetry; apply Z.eqb_neq; lia).
      destruct (get h (c_last c)) as [it| | |]; cbn [rbind] in *; try discriminate. injection E2 as -> -> ->.
      exists h2, c2, ps2. split; [reflexivity|]. split; [exact R2|exact G2].
  - specialize (SR (At i) HR I Ln). cbn [seq_step popped] in SR. destruct (nth_z (rev l) i); exact SR.
  - specialize (SR (Erase i) HR). cbn [seq_step popped allowed] in SR. rewrite rev_length in SR. specialize (SR Ho Ln).
    destruct (nth_z (rev l) i); [|exact SR]. unfold stack_rep. cbn [fst snd]. rewrite rev_involutive. exact SR.
  - specialize (SR (IndexOf v) HR I Ln). exact SR.
  - specialize (SR (Contains v) HR I Ln). cbn [seq_step popped] in SR. rewrite existsb_rev in SR. exact SR.
  - specialize (SR Size HR I Ln). cbn [seq_step popped] in SR. rewrite rev_length in SR. exact SR.
  - specialize (SR Empty HR I Ln). cbn [seq_step popped] in SR. destruct l as [|v l]; [exact SR|].
    assert (Nr : rev (v :: l) <> []) by (intros E; apply Fl in E; discriminate). rewrite (empty_match _ Nr) in SR. exact SR.
  - specialize (SR Clear HR I Ln). exact SR.
Qed.
Theorem stack_runs f m os : Z.of_nat (length os) <= int_max -> (length os <= f)%nat ->
  all_ok (lifo_step' eqv) stack_ok (replicate m ([], false)) os ->
  sys_run (stack_step eqv f) (start m) os = spec_run (lifo_step' eqv) (replicate m ([], false)) os.
Proof. intros L1 L2. apply start_refines with (R := stack_rep); [apply stack_framed|apply stack_below|apply stack_refines; assumption|apply empty_rep]. Qed.

(** ** Queues *)
Definition queue_rep h c ps (l : list V) : Prop := seq_rep h c ps (l, false).
Lemma queue_refines f n : Z.of_nat n <= int_max -> (n <= f)%nat -> refines (queue_step f) fifo_step queue_ok queue_rep n.
Proof.
  intros Nm Nf h c ps l o HR Ho Ln. unfold queue_rep in HR.
  pose proof (fun o' => seq_refines (fun _ _ => false) KList f n Nm Nf h c ps (l, false) o' HR) as SR. unfold seq_step' in SR. cbn [fst snd] in SR.
  pose proof (proj1 (seq_rep_clean _ _ _ _) HR) as [Iv El].
  destruct o as [v| | |i| | | |]; cbn [fifo_step].
  - specialize (SR (PushBack v) ltac:(cbn; discriminate) Ln). exact SR.
  - specialize (SR PopFront I Ln). cbn [seq_step popped] in SR. pose proof (inv_qrep _ _ _ Iv) as Q. destruct Q as (Q1 & Q2 & Q3).
    cbn [queue_step]. destruct ps as [|[a w] ps]; subst l; cbn [map snd] in *.
    + rewrite Q3. reflexivity.
    + rewrite (at_ok h c _ 0 0 (conj Q1 (conj Q2 Q3))). change (nth_z (vals ((a, w) :: ps)) 0) with (Some w). rewrite Q3.
      replace (Z.of_nat (length ((a, w) :: ps)) <=? 0) with false by (symmetry; apply Z.leb_gt; cbn [length]; lia). cbn [rbind].
      destruct SR as (h' & c' & ps' & E & G). exists h', c', ps'. split; [|exact G]. cbn [step] in E.
      destruct (pop_front h c); cbn [rbind] in *; try discriminate. injection E as -> ->. reflexivity.
  - specialize (SR Last eq_refl Ln). cbn [seq_step popped] in SR. cbn [queue_ok] in Ho. destruct l as [|v [|w l]]; [exact SR|exact SR|cbn [length] in Ho; lia].
  - specialize (SR (At i) I Ln). cbn [seq_step popped] in SR. destruct (nth_z l i); exact SR.
  - exact (SR Size I Ln).
  - exact (SR Empty I Ln).
  - exact (SR Clear I Ln).
  - exact (SR Elements eq_refl Ln).
Qed.
Theorem queue_runs f m (os : list (nat * qop V)) : Z.of_nat (length os) <= int_max -> (length os <= f)%nat -> all_ok fifo_step queue_ok (replicate m []) os ->
  sys_run (queue_step f) (start m) os = spec_run fifo_step (replicate m []) os.
Proof.
  intros L1 L2. apply start_refines with (R := queue_rep); [intros h h' c ps s; apply seq_framed|intros h c ps s; apply seq_below|apply queue_refines; assumption|apply empty_rep].
Qed.

(** ** Sets *)
Definition set_rep h c ps (l : list V) : Prop := sound_in h ps /\ qrep h c ps 0 /\ l = vals ps.
Lemma set_framed : framed set_rep.
Proof.
  intros h h' c ps s ((ND & F & F0) & (Q1 & Q2 & Q3) & El) K Lf. split.
  - split; [exact ND|]. split; [|lia]. intros a Ha. apply F in Ha. lia.
  - split; [|exact El]. split; [eapply chain_frame; eauto|]. split; assumption.
Qed.
Lemma set_below : below set_rep.
Proof. intros h c ps s a ((_ & F & _) & _) Ha. apply F. exact Ha. Qed.

(** A new item behind the item [t]. *)
Lemma splice h q t u r v : let ps := q ++ (t, u) :: r in chain h ps 0 -> sound_in h ps ->
  exists h2 h3, set_next (snd (new_item h v)) (h_free h) (start_of r 0) = Ok h2 /\ set_next h2 t (h_free h) = Ok h3 /\
    chain h3 (q ++ (t, u) :: (h_free h, v) :: r) 0 /\ h_free h3 = (h_free h + 1)%N /\
    (forall b, (b < h_free h)%N -> b ∉ addrs ps -> h_items h3 !! b = h_items h !! b).
Proof.
  intros ps Hc So. pose proof So as (ND & F & F0). pose proof (nodup_mid _ _ _ _ ND) as [Ht1 Ht2]. pose proof (fresh_not_in h _ So) as Fr.
  pose proof (new_frame h v _ _ F Hc) as C1.
  destruct (link (snd (new_item h v)) [] (h_free h) v 0 (start_of r 0)) as (h2 & E2 & [K2 F2] & C2); [apply new_chain; exact F0|intros H; inversion H|].
  assert (C1' : chain h2 ((q ++ [(t, u)]) ++ r) 0).
  { rewrite <- app_assoc. eapply chain_frame; [|exact C1]. intros e He. apply K2. intros ->. contradiction. }
  apply chain_app in C1' as [Ca Cb]. destruct (link h2 q t u _ (h_free h) Ca Ht1) as (h3 & E3 & [K3 F3] & C3).
  exists h2, h3. split; [exact E2|]. split; [exact E3|].
  assert (Ft : h_free h <> t) by (intros <-; apply Fr; unfold ps; rewrite map_app, elem_of_app; right; left).
  split; [|split].
  - change (q ++ (t, u) :: (h_free h, v) :: r) with (q ++ [(t, u)] ++ [(h_free h, v)] ++ r). rewrite app_assoc. apply chain_app. split; [exact C3|].
    apply chain_app. split.
    + eapply chain_frame; [|exact C2]. intros e He. apply elem_of_list_singleton in He as ->. apply K3. exact Ft.
    + eapply chain_frame; [|exact Cb]. intros e He. apply K3. intros ->. contradiction.
  - rewrite F3, F2. reflexivity.
  - intros b Hb Hn. rewrite K3, K2; [cbn [new_item snd h_items]; rewrite lookup_insert_ne by lia; reflexivity|lia|].
    intros ->. apply Hn. unfold ps. rewrite map_app, elem_of_app. right. left.
Qed.
Lemma insert_loop_ok lt h v ps e p : chain h ps e ->
  exists q r, ps = q ++ r /\ insert_loop lt h v p (start_of ps e) (length ps) = Ok (match q with [] => p | _ => end_of q end) /\
    put_sorted lt v (vals ps) = vals q ++ v :: vals r /\ (match ps with (_, x) :: _ => lt v x = false -> q <> [] | [] => True end).
Proof.
  revert p. induction ps as [|[a w] ps IH]; intros p H.
  - exists [], []. repeat split.
  - cbn [length insert_loop start_of map snd put_sorted]. destruct (get_head _ _ _ _ _ H) as (i & Hg & Hv & Hn). rewrite Hg. cbn [rbind]. rewrite Hv.
    destruct (lt v w) eqn:El.
    + exists [], ((a, w) :: ps). repeat split. congruence.
    + rewrite Hn. destruct (IH a) as (q & r & -> & E & P & _); [cbn [chain] in H; tauto|]. exists ((a, w) :: q), r. split; [reflexivity|].
      split; [rewrite E; destruct q; reflexivity|]. split; [rewrite P; reflexivity|discriminate].
Qed.
Lemma set_insert_ok lt dups h c ps v : sound_in h ps -> qrep h c ps 0 -> Z.of_nat (length ps) < int_max ->
  exists h' c' ps', set_insert lt dups h c v = Ok (h', c') /\ set_rep h' c' ps' (put_sorted lt v (vals ps)) /\ evolves h ps h' ps' /\
    length ps' = S (length ps).
Proof.
  intros So (Q1 & Q2 & Q3) L. pose proof So as (ND & F & F0). unfold set_insert. change (new_item h v) with (h_free h, snd (new_item h v)). cbv beta iota zeta.
  assert (K1 : forall b, (b < h_free h)%N -> h_items (snd (new_item h v)) !! b = h_items h !! b).
  { intros b Hb. cbn [new_item snd h_items]. rewrite lookup_insert_ne by lia. reflexivity. }
  destruct ps as [|[a w] ps].
  { rewrite Q2. cbn [start_of]. change (null 0) with true. cbn [rbind fst snd]. rewrite Q3. cbn [length]. rewrite (grow_ok (h_free h) (h_free h) 0 L). cbn [rbind].
    eexists _, _, [(h_free h, v)]. split; [reflexivity|]. split; [|split; [|reflexivity]].
    - split; [eapply sound_cons; [exact So|reflexivity|reflexivity]|]. split; [|reflexivity]. split; [apply new_chain; exact F0|]. split; reflexivity.
    - eapply evolves_cons; [reflexivity|reflexivity|]. intros b Hb _. apply K1. exact Hb. }
  rewrite Q2. cbn [start_of]. assert (Na : null a = false) by (unfold null; apply N.eqb_neq; cbn [chain] in Q1; tauto). rewrite Na.
  pose proof (new_frame h v _ _ F Q1) as C1. destruct (get_head _ _ _ _ _ C1) as (i & Hg & Hv & Hn). rewrite Hg. cbn [rbind]. rewrite Hv.
  destruct (lt v w) eqn:Elt.
  { destruct (cons_core h _ v Q1 So) as (h2 & E & C & Ef & K). cbn [start_of] in E. rewrite E. cbn [rbind fst snd]. rewrite Q3, grow_ok by exact L. cbn [rbind].
    eexists _, _, ((h_free h, v) :: (a, w) :: ps). split; [reflexivity|]. split; [|split; [|reflexivity]].
    - split; [eapply sound_cons; [exact So|exact Ef|reflexivity]|]. cbn [map snd put_sorted]. rewrite Elt. split; [|reflexivity].
      split; [exact C|]. split; reflexivity.
    - eapply evolves_cons; [exact Ef|reflexivity|]. intros b Hb _. apply K. exact Hb. }
  destruct (insert_loop_ok lt (snd (new_item h v)) v _ _ 0 C1) as (q & r & Eps & E & P & Nq). cbn [start_of] in E. rewrite Q3, Nat2Z.id, E. cbn [rbind].
  specialize (Nq Elt). destruct (exists_last Nq) as (q' & [t u] & ->).
  replace (match q' ++ [(t, u)] with [] => 0%N | _ :: _ => end_of (q' ++ [(t, u)]) end) with t
    by (rewrite end_snoc; destruct q'; reflexivity).
  rewrite Eps in *. rewrite <- app_assoc in Q1, C1, So. cbn [app] in Q1, C1, So.
  destruct (get_in _ _ _ _ _ _ C1) as (j & Hj & _ & Hm). unfold next_of. rewrite Hj. cbn [rbind]. rewrite Hm.
  assert (Hd : negb dups && negb (null (start_of r 0)) && (h_free h =? start_of r 0)%N = false).
  { destruct r as [|[y z] r]; [rewrite andb_false_r; reflexivity|]. cbn [start_of]. replace (h_free h =? y)%N with false; [apply andb_false_r|].
    symmetry. apply N.eqb_neq. intros <-. apply (fresh_not_in h _ So). rewrite map_app, elem_of_app. right. right. left. }
  rewrite Hd. destruct (splice h q' t u r v Q1 So) as (h2 & h3 & E2 & E3 & C3 & F3 & K3). rewrite E2. cbn [rbind]. rewrite E3. cbn [rbind fst snd].
  destruct c as [cf cl cs]. cbn [c_first c_last c_size] in *. subst cs cf. rewrite grow_ok by exact L. cbn [rbind].
  assert (Pm : q' ++ (t, u) :: (h_free h, v) :: r ≡ₚ (h_free h, v) :: (q' ++ (t, u) :: r)).
  { change (q' ++ (t, u) :: (h_free h, v) :: r) with (q' ++ [(t, u)] ++ (h_free h, v) :: r).
    change (q' ++ (t, u) :: r) with (q' ++ [(t, u)] ++ r). rewrite !app_assoc. symmetry. apply Permutation_middle. }
  eexists _, _, (q' ++ (t, u) :: (h_free h, v) :: r). split; [reflexivity|]. split; [|split].
  - split; [eapply sound_cons; [exact So|exact F3|exact Pm]|]. split.
    + split; [exact C3|]. cbn [c_first c_size]. split.
      * rewrite !start_app. reflexivity.
      * rewrite !app_length. cbn [length]. lia.
    + rewrite P. rewrite !map_app. cbn [map snd]. rewrite <- app_assoc. reflexivity.
  - rewrite <- app_assoc. cbn [app]. eapply evolves_cons; [exact F3|exact Pm|exact K3].
  - rewrite !app_length. cbn [length]. lia.
Qed.
Lemma set_refines lt dups f n : Z.of_nat n <= int_max -> (n <= f)%nat ->
  refines (set_step eqv lt dups f) (sorted_step eqv lt) set_ok set_rep n.
Proof.
  intros Nm Nf h c ps l o HR Ho Ln. pose proof HR as (So & Q & ->). pose proof Q as (Q1 & Q2 & Q3).
  assert (Lm : Z.of_nat (length ps) < int_max) by lia.
  assert (Same : forall a, set_step eqv lt dups f h c o = Ok (h, c, a) ->
    exists h' c' ps', set_step eqv lt dups f h c o = Ok (h', c', a) /\ set_rep h' c' ps' (vals ps) /\ evolves h ps h' ps' /\ (length ps' <= S (length ps))%nat).
  { intros a E. exists h, c, ps. split; [exact E|]. split; [exact HR|split; [apply evolves_same|lia]]. }
  destruct o as [v|i|i| | |v|v| | | |]; cbn [sorted_step].
  - destruct (set_insert_ok lt dups h c ps v So Q Lm) as (h' & c' & ps' & E & R' & Ev & Hl). exists h', c', ps'. cbn [set_step]. rewrite E.
    split; [reflexivity|]. split; [exact R'|]. split; [exact Ev|lia].
  - cbn [set_ok] in Ho. rewrite map_length in Ho. cbn [set_step].
    pose proof (erase_last f h (c_first c) (end_of ps) (c_last c) (c_size c) i) as EL.
    assert (Iv : inv h (Coll (c_first c) (end_of ps) (c_size c)) ps) by (split; [split; [exact Q1|]; split; [exact Q2|]; split; [exact Q3|reflexivity]|exact So]).
    destruct c as [cf cl cs]. cbn [c_first c_last c_size] in *.
    destruct (nth_in ps i) as [(m & Em & Lt & En & [x Ex])|[En Ei]]; rewrite En.
    + rewrite Ex. destruct (vals_split _ _ _ Ex) as (q1 & a & q2 & -> & ->). subst i.
      destruct (erase_ok h _ q1 a x q2 f Iv ltac:(lia)) as (h' & c' & E & [(C1 & C2 & C3 & _) So'] & Ev). rewrite E in EL.
      destruct (erase f h (Coll cf cl cs) (Z.of_nat (length q1))) as [[h2 c2]| | |]; try contradiction. destruct EL as (<- & E1 & E2).
      exists h', c2, (q1 ++ q2). split; [reflexivity|]. split; [|split; [exact Ev|rewrite !app_length; cbn [length]; lia]].
      split; [exact So'|]. split; [split; [exact C1|]; split; congruence|].
      rewrite Nat2Z.id, !map_app. cbn [map snd]. rewrite <- (map_length snd q1) at 1. apply delete_mid.
    + rewrite (erase_outside f h _ ps i Iv) in EL by lia. destruct (erase f h (Coll cf cl cs) i) as [[h2 c2]| | |]; try contradiction. subst. reflexivity.
  - cbn [set_step] in *. pose proof (at_ok h c ps 0 i Q) as E. destruct (nth_z (vals ps) i) as [v|]; rewrite E in *; [|reflexivity]. apply Same; reflexivity.
  - cbn [set_step] in *. pose proof (first_ok h c ps 0 Q) as E. destruct (vals ps) eqn:Ev; rewrite E in *; [reflexivity|]. apply Same; reflexivity.
  - contradiction.
  - apply Same. cbn [set_step]. rewrite (index_of_ok eqv h c ps 0 v Q). reflexivity.
  - apply Same. cbn [set_step]. rewrite (contains_ok eqv h c ps 0 v Q). reflexivity.
  - apply Same. cbn [set_step]. rewrite Q3, map_length. reflexivity.
  - apply Same. cbn [set_step]. unfold is_empty. rewrite Q3. destruct ps; reflexivity.
  - cbn [set_step]. rewrite (clear_ok _ _ _ _ Q). cbn [rbind]. exists h, (Coll 0 0 0), []. split; [reflexivity|].
    destruct So as (ND & F & F0). split; [|split; [apply evolves_sub; intros a Ha; inversion Ha|cbn [length]; lia]].
    split; [split; [constructor|]; split; [intros a Ha; inversion Ha|exact F0]|]. repeat split.
  - apply Same. cbn [set_step]. apply elements_ok; [exact Q1|exact Q2|lia].
Qed.
Theorem set_runs lt dups f m (os : list (nat * setop V)) : Z.of_nat (length os) <= int_max -> (length os <= f)%nat -> all_ok (sorted_step eqv lt) set_ok (replicate m []) os ->
  sys_run (set_step eqv lt dups f) (start m) os = spec_run (sorted_step eqv lt) (replicate m []) os.
Proof.
  intros L1 L2. apply start_refines with (R := set_rep); [apply set_framed|apply set_below|apply set_refines; assumption|].
  split; [split; [constructor|]; split; [intros a Ha; inversion Ha|reflexivity]|]. repeat split.
Qed.
End Stacks.
