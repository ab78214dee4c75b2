(** Histories of calls on several collections. *)
From Coq Require Import ZArith.
From Verif Require Import Base Coll_Model Coll_Spec Coll_Proofs Coll_Steps.
Open Scope Z_scope.

(** ** Any kind of collection *)
Section Generic.
Context {V S O A : Type} (stp : heap V -> coll -> O -> res (heap V * coll * A)) (spec : S -> O -> res (S * A)) (ok : S -> O -> Prop).
Context (R : heap V -> coll -> list (N * V) -> S -> Prop).
Definition framed : Prop := forall h h' c ps s, R h c ps s -> (forall a, a ∈ addrs ps -> h_items h' !! a = h_items h !! a) ->
  (h_free h <= h_free h')%N -> R h' c ps s.
Definition below : Prop := forall h c ps s a, R h c ps s -> a ∈ addrs ps -> (a < h_free h)%N.
Definition refines (n : nat) : Prop := forall h c ps s o, R h c ps s -> ok s o -> (length ps < n)%nat ->
  match spec s o with
  | Ok (s', a) => exists h' c' ps', stp h c o = Ok (h', c', a) /\ R h' c' ps' s' /\ evolves h ps h' ps' /\ (length ps' <= Datatypes.S (length ps))%nat
  | Throw e => stp h c o = Throw e
  | _ => False
  end.
Definition state_inv (sy : sys V) (pss : list (list (N * V))) (ss : list S) : Prop :=
  length pss = length ss /\ length (s_colls sy) = length ss /\
  (forall i c ps s, s_colls sy !! i = Some c -> pss !! i = Some ps -> ss !! i = Some s -> R (s_heap sy) c ps s) /\
  (forall i j p q a, pss !! i = Some p -> pss !! j = Some q -> i <> j -> a ∈ addrs p -> a ∉ addrs q).
Lemma run_refines n os : framed -> below -> refines n -> forall sy pss ss, state_inv sy pss ss ->
  (forall ps, ps ∈ pss -> (length ps + length os <= n)%nat) -> all_ok spec ok ss os ->
  sys_run stp sy os = spec_run spec ss os.
Proof.
  intros Fr Bl Rf. induction os as [|[x o] os IH]; intros sy pss ss I B Ao; [reflexivity|].
  pose proof I as (L1 & L2 & HR & D). cbn [sys_run spec_run all_ok] in *. unfold sys_step. cbn [fst snd].
  destruct (ss !! x) as [s|] eqn:Es.
  2: { apply lookup_ge_None in Es. rewrite (lookup_ge_None_2 (s_colls sy)) by lia. f_equal. apply (IH sy pss ss I); [|exact Ao].
       intros ps Hp. specialize (B ps Hp). cbn [length] in B. lia. }
  destruct Ao as [Ho Ao].
  assert (Lx : (x < length ss)%nat) by (eapply lookup_lt_Some; exact Es).
  destruct (lookup_lt_is_Some_2 (s_colls sy) x ltac:(lia)) as [c Ec]. rewrite Ec.
  destruct (lookup_lt_is_Some_2 pss x ltac:(lia)) as [ps Ep].
  pose proof (HR x c ps s Ec Ep Es) as R0.
  assert (Bps : (length ps < n)%nat) by (specialize (B ps (elem_of_list_lookup_2 _ _ _ Ep)); cbn [length] in B; lia).
  pose proof (Rf _ _ _ _ o R0 Ho Bps) as St. destruct (spec s o) as [[s' a]|e| |]; try contradiction.
  2: { rewrite St. f_equal. apply (IH sy pss ss I); [|exact Ao]. intros q Hp. specialize (B q Hp). cbn [length] in B. lia. }
  destruct St as (h' & c' & ps' & -> & R' & (Hfree & Hnew & Hkeep) & Hlen). f_equal.
  apply (IH _ (<[x := ps']> pss) (<[x := s']> ss)); [|clear IH|exact Ao].
  - split; [rewrite !insert_length; exact L1|]. cbn [s_colls s_heap]. split; [rewrite !insert_length; exact L2|]. split.
    + intros i ci pi si Hci Hpi Hsi. destruct (decide (i = x)) as [->|Ni].
      * rewrite list_lookup_insert in Hci by lia. rewrite list_lookup_insert in Hpi by lia. rewrite list_lookup_insert in Hsi by lia.
        congruence.
      * rewrite list_lookup_insert_ne in Hci by congruence. rewrite list_lookup_insert_ne in Hpi by congruence. rewrite list_lookup_insert_ne in Hsi by congruence. pose proof (HR _ _ _ _ Hci Hpi Hsi) as Ri.
        eapply Fr; [exact Ri| |exact Hfree]. intros b Hb. apply Hkeep; [eapply Bl; eauto|].
        apply (D i x pi ps b Hpi Ep Ni Hb).
    + assert (D' : forall i p b, i <> x -> pss !! i = Some p -> b ∈ addrs p -> b ∉ addrs ps').
      { intros i p b Ni Hp Hb Hb'. destruct (Hnew b Hb') as [Hin|Hge].
        - exact (D i x p ps b Hp Ep Ni Hb Hin).
        - destruct (lookup_lt_is_Some_2 (s_colls sy) i) as [ci Hci]; [apply lookup_lt_Some in Hp; lia|].
          destruct (lookup_lt_is_Some_2 ss i) as [si Hsi]; [apply lookup_lt_Some in Hp; lia|].
          pose proof (Bl _ _ _ _ b (HR _ _ _ _ Hci Hp Hsi) Hb). lia. }
      intros i j p q b Hp Hq Nij Hb. destruct (decide (i = x)) as [->|Ni].
      * rewrite list_lookup_insert in Hp by lia. injection Hp as <-. rewrite list_lookup_insert_ne in Hq by congruence.
        intros Hq'. exact (D' j q b ltac:(congruence) Hq Hq' Hb).
      * rewrite list_lookup_insert_ne in Hp by congruence. destruct (decide (j = x)) as [->|Nj].
        -- rewrite list_lookup_insert in Hq by lia. injection Hq as <-. exact (D' i p b Ni Hp Hb).
        -- rewrite list_lookup_insert_ne in Hq by congruence. exact (D i j p q b Hp Hq Nij Hb).
  - intros q Hq. apply elem_of_list_lookup in Hq as [i Hi]. destruct (decide (i = x)) as [->|Ni].
    + rewrite list_lookup_insert in Hi by lia. injection Hi as <-.
      specialize (B ps (elem_of_list_lookup_2 _ _ _ Ep)). cbn [length] in B. lia.
    + rewrite list_lookup_insert_ne in Hi by congruence. specialize (B q (elem_of_list_lookup_2 _ _ _ Hi)). cbn [length] in B. lia.
Qed.
Lemma start_refines s0 k os : framed -> below -> refines (length os) -> R empty_heap new_coll [] s0 ->
  all_ok spec ok (replicate k s0) os -> sys_run stp (start k) os = spec_run spec (replicate k s0) os.
Proof.
  intros Fr Bl Rf R0 Ao. apply (run_refines (length os) os Fr Bl Rf _ (replicate k [])); [| |exact Ao].
  - unfold start. split; [rewrite !replicate_length; reflexivity|]. cbn [s_colls s_heap]. split; [rewrite !replicate_length; reflexivity|]. split.
    + intros i c ps s Hc Hp Hs. apply lookup_replicate_1 in Hc as [-> _]. apply lookup_replicate_1 in Hp as [-> _].
      apply lookup_replicate_1 in Hs as [-> _]. exact R0.
    + intros i j p q a Hp _ _ Ha. apply lookup_replicate_1 in Hp as [-> _]. inversion Ha.
  - intros ps Hp. apply elem_of_replicate in Hp as [-> _]. cbn [length]. lia.
Qed.
End Generic.

(** ** Sequences *)
Section Sequences.
Context {V : Type} (eqv : V -> V -> bool).
Implicit Types (h : heap V) (ps : list (N * V)) (c : coll).

Definition seq_rep h c ps (s : list V * bool) : Prop :=
  sound_in h ps /\
  exists p1 p2, ps = p1 ++ p2 /\ fst s = vals p1 /\ chain h ps 0 /\ c_first c = start_of ps 0 /\ c_size c = Z.of_nat (length p1) /\
    (snd s = false -> p2 = [] /\ (ps <> [] -> c_last c = end_of ps)).
Lemma seq_rep_clean h c ps l : seq_rep h c ps (l, false) <-> inv h c ps /\ l = vals ps.
Proof.
  split.
  - intros (S & p1 & p2 & -> & El & Hc & Hf & Hs & Hd). cbn [fst snd] in *. destruct (Hd eq_refl) as [-> Hl].
    rewrite app_nil_r in *. split; [|exact El]. split; [|exact S]. repeat split; assumption.
  - intros [[(Hc & Hf & Hs & Hl) S] ->]. split; [exact S|]. exists ps, []. rewrite app_nil_r. repeat split; assumption.
Qed.
Lemma seq_rep_q h c ps s : seq_rep h c ps s -> exists p1 e, qrep h c p1 e /\ fst s = vals p1.
Proof.
  intros (S & p1 & p2 & -> & El & Hc & Hf & Hs & _). exists p1, (start_of p2 0). split; [|exact El].
  apply chain_app in Hc as [Hc _]. rewrite start_app in Hf. repeat split; assumption.
Qed.
Lemma chain_same h h' ps e : (forall a, a ∈ addrs ps -> h_items h' !! a = h_items h !! a) -> chain h ps e -> chain h' ps e.
Proof. apply chain_frame. Qed.
Lemma seq_framed : framed seq_rep.
Proof.
  intros h h' c ps s ((ND & F & F0) & p1 & p2 & -> & El & Hc & Hf & Hs & Hd) K Lf. split.
  - split; [exact ND|]. split; [|lia]. intros a Ha. apply F in Ha. lia.
  - exists p1, p2. split; [reflexivity|]. split; [exact El|]. split; [eapply chain_frame; eauto|]. repeat split; try assumption; apply Hd; assumption.
Qed.
Lemma seq_below : below seq_rep.
Proof. intros h c ps s a ((_ & F & _) & _) Ha. apply F. exact Ha. Qed.
Lemma empty_rep : seq_rep empty_heap new_coll [] ([], false).
Proof.
  split.
  - split; [constructor|]. split; [intros a Ha; inversion Ha|reflexivity].
  - exists [], []. repeat split.
Qed.

Lemma vals_split ps (n : nat) x : vals ps !! n = Some x -> exists p1 a p2, ps = p1 ++ (a, x) :: p2 /\ n = length p1.
Proof.
  intros H. rewrite list_lookup_fmap in H. destruct (ps !! n) as [[a w]|] eqn:E; [|discriminate]. cbn in H. injection H as ->.
  apply elem_of_list_split_length in E as (p1 & p2 & -> & ->). eauto.
Qed.
Lemma delete_mid {X} (l1 : list X) x l2 : delete (length l1) (l1 ++ x :: l2) = l1 ++ l2.
Proof. induction l1 as [|y l1 IH]; [reflexivity|]. exact (f_equal (cons y) IH). Qed.
Lemma nth_in ps i : (exists n, Z.of_nat n = i /\ (n < length ps)%nat /\ nth_z (vals ps) i = vals ps !! n /\ is_Some (vals ps !! n)) \/
  (nth_z (vals ps) i = None /\ (i < 0 \/ Z.of_nat (length ps) <= i)).
Proof.
  unfold nth_z. destruct (Z.ltb_spec i 0) as [H|H]; [right; auto|]. destruct (Nat.lt_ge_cases (Z.to_nat i) (length ps)) as [L|L].
  - left. exists (Z.to_nat i). repeat split; [lia|exact L|]. apply lookup_lt_is_Some_2. rewrite map_length. exact L.
  - right. split; [|lia]. apply lookup_ge_None_2. rewrite map_length. exact L.
Qed.
(** A push onto a collection without elements starts a new chain, whatever was there before. *)
Lemma push_empty h c ps v : sound_in h ps -> c_size c = 0 -> Z.of_nat 0 < int_max ->
  good_push (push_back h c v) h ps [(h_free h, v)] /\ good_push (list_push_back h c v) h ps [(h_free h, v)].
Proof.
  intros So Hs L. destruct So as (ND & F & F0).
  assert (I : inv h (Coll 0 0 0) []) .
  { split; [repeat split; congruence|]. split; [constructor|]. split; [intros a Ha; inversion Ha|exact F0]. }
  assert (X : forall h' c', inv h' c' ([] ++ [(h_free h, v)]) /\ evolves h [] h' ([] ++ [(h_free h, v)]) ->
    inv h' c' [(h_free h, v)] /\ evolves h ps h' [(h_free h, v)]).
  { intros h' c' (I' & (E1 & E2 & E3)). split; [exact I'|]. split; [exact E1|]. split.
    - intros a Ha. right. destruct (E2 a Ha) as [H|H]; [inversion H|exact H].
    - intros b Hb _. apply E3; [exact Hb|]. intros H. inversion H. }
  split.
  - destruct (push_back_ok h (Coll 0 0 0) [] v I L) as (h' & c' & E & G). exists h', c'. split; [|apply X; exact G].
    rewrite <- E. unfold push_back. rewrite Hs. reflexivity.
  - destruct (list_push_back_ok h (Coll 0 0 0) [] v I L) as (h' & c' & E & G).
    (* the link backwards may differ *)
    unfold list_push_back in *. change (new_item h v) with (h_free h, snd (new_item h v)) in *. cbv beta iota zeta in *.
    rewrite Hs. cbn [c_size Z.eqb rbind fst snd] in *. change (0 =? 0) with true in *. cbn [rbind fst snd] in *.
    assert (C : chain (snd (new_item h v)) ([] ++ [(h_free h, v)]) 0) by (apply new_chain; exact F0).
    destruct (set_prev_ok _ _ _ _ _ _ (c_last c) C) as (h3 & E3). rewrite E3. cbn [rbind].
    destruct (set_prev_chain _ _ _ _ E3) as (C3 & K3 & F3). cbn [app] in *.
    pose proof (grow_ok (h_free h) (h_free h) 0 L) as Gr. change (Z.of_nat 0) with 0 in Gr. rewrite Gr. cbn [rbind].
    eexists _, _. split; [reflexivity|]. apply X. split; [split|].
    + split; [apply C3; exact C|]. repeat split.
    + split; [apply NoDup_singleton|]. rewrite F3. cbn [new_item snd h_free]. split; [|lia]. intros a Ha.
      apply elem_of_list_singleton in Ha as ->. cbn [fst]. lia.
    + split; [rewrite F3; cbn [new_item snd h_free]; lia|]. split.
      * intros a Ha. apply elem_of_list_singleton in Ha as ->. right. cbn [fst]. lia.
      * intros b Hb _. rewrite K3 by lia. cbn [new_item snd h_items]. rewrite lookup_insert_ne by lia. reflexivity.
Qed.

Ltac frame_same := split; [apply evolves_same|lia].
Lemma seq_refines k f n : Z.of_nat n <= int_max -> (n <= f)%nat -> refines (step eqv k f) (seq_step' eqv) (allowed k) seq_rep n.
Proof.
  intros Nm Nf h c ps [l d] o HR Ho Ln. unfold seq_step'. cbn [fst snd].
  pose proof (seq_rep_q _ _ _ _ HR) as (p1 & e & HQ & El). cbn [fst] in El.
  assert (Lm : Z.of_nat (length ps) < int_max) by lia.
  (* calls which change nothing *)
  assert (Same : forall a, popped d o = d -> step eqv k f h c o = Ok (h, c, a) ->
    exists h' c' ps', step eqv k f h c o = Ok (h', c', a) /\ seq_rep h' c' ps' (l, popped d o) /\ evolves h ps h' ps' /\ (length ps' <= S (length ps))%nat).
  { intros a Hp E. rewrite Hp. exists h, c, ps. split; [exact E|]. split; [exact HR|frame_same]. }
  (* calls on a collection with intact tail *)
  assert (Push : forall r h0 ps' l', d = false -> popped d o = false -> step eqv k f h c o = upd r -> good_push r h0 ps ps' -> h0 = h ->
     l' = vals ps' -> (length ps' <= S (length ps))%nat ->
    exists h' c' ps', step eqv k f h c o = Ok (h', c', AUnit) /\ seq_rep h' c' ps' (l', popped d o) /\ evolves h ps h' ps' /\ (length ps' <= S (length ps))%nat).
  { intros r h0 ps' l' -> Hp Es (h' & c' & -> & I' & E') -> -> Hl. exists h', c', ps'. split; [exact Es|]. rewrite Hp. split; [apply seq_rep_clean; auto|].
    split; assumption. }
  destruct o as [v|v| | |i|i v| |i| | |v|v| | |]; cbn [seq_step].
  - (* push_back *)
    destruct d.
    + specialize (Ho eq_refl). subst l. destruct HR as (So & q1 & q2 & -> & El' & _ & _ & Hs & _). cbn [fst] in El'.
      symmetry in El'. apply map_eq_nil in El' as ->. cbn [length] in Hs.
      destruct (push_empty h c _ v So Hs) as [P1 P2]; [cbn [app] in *; lia|].
      cbn [step]. destruct k; [destruct P2 as (h' & c' & -> & I' & E')|destruct P1 as (h' & c' & -> & I' & E')|destruct P1 as (h' & c' & -> & I' & E')];
        (exists h', c', [(h_free h, v)]; split; [reflexivity|]; split; [apply seq_rep_clean; auto|]; split; [exact E'|cbn [length]; lia]).
    + apply seq_rep_clean in HR as [I ->]. eapply (Push (match k with KList => list_push_back h c v | _ => push_back h c v end) h (ps ++ [(h_free h, v)])); auto.
      * destruct k; [apply list_push_back_ok|apply push_back_ok|apply push_back_ok]; auto.
      * rewrite map_app. reflexivity.
      * rewrite app_length. cbn [length]. lia.
  - (* push_front *)
    destruct Ho as [-> Ho]. apply seq_rep_clean in HR as [I ->].
    eapply (Push _ h ((h_free h, v) :: ps)); [reflexivity|reflexivity|reflexivity| |reflexivity|reflexivity|reflexivity].
    destruct k; [apply list_push_front_ok|apply vector_push_front_ok|apply double_push_front_ok]; auto.
    intros ->. apply Ho; reflexivity.
  - (* pop_front *)
    destruct HR as (So & q1 & q2 & -> & El' & Hc & Hf & Hs & Hd). cbn [fst snd] in *. subst l. destruct q1 as [|[a v] q1]; cbn [map snd] in *.
    + cbn [step]. unfold pop_front. rewrite Hs. reflexivity.
    + cbn [step]. unfold pop_front. rewrite Hs. replace (Z.of_nat (length ((a, v) :: q1)) <=? 0) with false by (symmetry; apply Z.leb_gt; cbn [length]; lia).
      cbn [app] in *. destruct (get_head _ _ _ _ _ Hc) as (it & Hg & _ & Hn). unfold next_of. rewrite Hf. cbn [start_of]. rewrite Hg. cbn [rbind]. rewrite Hn.
      eexists _, _, (q1 ++ q2). split; [reflexivity|]. split; [|split; [apply evolves_sub; intros b Hb; right; exact Hb|cbn [length]; lia]].
      split.
      * eapply sub_sound; [exact So|reflexivity|]. exact (Permutation_cons_append _ _).
      * exists q1, q2. cbn [fst snd chain] in *. split; [reflexivity|]. split; [reflexivity|]. split; [tauto|]. cbn [c_first c_last c_size].
        split; [reflexivity|]. split; [cbn [length]; lia|]. intros Hd'. destruct (Hd Hd') as [-> Hl]. split; [reflexivity|]. intros N0.
        rewrite Hl by discriminate. apply end_push. exact N0.
  - (* pop_back *)
    destruct HR as (So & q1 & q2 & -> & El' & Hc & Hf & Hs & Hd). cbn [fst snd] in *. subst l.
    destruct (decide (q1 = [])) as [->|N1].
    + cbn [step map]. destruct k; unfold pop_back, double_pop_back; rewrite Hs; reflexivity.
    + destruct (exists_last N1) as (q & [b w] & ->). rewrite map_app. cbn [map snd].
      assert (exists c', step eqv k f h c PopBack = Ok (h, c', AUnit) /\ c_first c' = c_first c /\ c_size c' = c_size c - 1) as (c' & E & Ef & Es).
      { rewrite app_length in Hs. cbn [length] in Hs. cbn [step]. unfold pop_back, double_pop_back. rewrite Hs.
        replace (Z.of_nat (length q + 1) <=? 0) with false by (symmetry; apply Z.leb_gt; lia).
        destruct (Z.eqb_spec (Z.of_nat (length q + 1)) 1) as [E1|E1].
        - destruct k; (eexists; split; [reflexivity|]; auto).
        - assert (C' : chain h (q ++ (b, w) :: q2) 0) by (rewrite <- app_assoc in Hc; exact Hc).
          replace (Z.to_nat (Z.of_nat (length q + 1) - 1)) with (length q) by lia.
          assert (W : walk h (c_first c) (length q) = Ok b).
          { rewrite Hf, <- app_assoc. cbn [app]. rewrite (walk_chain h q ((b, w) :: q2) 0 C'). reflexivity. }
          rewrite W. cbn [rbind]. destruct (get_in _ _ _ _ _ _ C') as (it & Hg & _). rewrite Hg. cbn [rbind].
          destruct k; (eexists; split; [reflexivity|]; auto). }
      replace (match vals q ++ [w] with [] => outside | _ :: _ => Ok (removelast (vals q ++ [w]), AUnit) end) with (Ok (vals q, @AUnit V))
        by (rewrite removelast_last; destruct (vals q ++ [w]) eqn:Ee; [destruct (vals q); discriminate|reflexivity]).
      exists h, c', ((q ++ [(b, w)]) ++ q2). split; [exact E|]. split; [|frame_same]. split; [exact So|].
      exists q, ((b, w) :: q2). rewrite <- app_assoc in *. cbn [app fst snd popped] in *. split; [reflexivity|]. split; [reflexivity|]. split; [exact Hc|].
      split; [congruence|]. split; [rewrite Es, Hs, app_length; cbn [length]; lia|discriminate].
  - (* erase *)
    destruct Ho as [-> Ho]. apply seq_rep_clean in HR as [I ->]. rewrite map_length in Ho. destruct (nth_in ps i) as [(m & Em & Lt & En & [x Ex])|[En Ei]]; rewrite En.
    + rewrite Ex. destruct (vals_split _ _ _ Ex) as (q1 & a & q2 & -> & ->). subst i.
      destruct (erase_ok h c q1 a x q2 f I ltac:(lia)) as (h' & c' & E & I' & Ev). cbn [step]. rewrite E.
      exists h', c', (q1 ++ q2). split; [reflexivity|]. split; [|split; [exact Ev|rewrite !app_length; cbn [length]; lia]].
      apply seq_rep_clean. split; [exact I'|]. rewrite Nat2Z.id, !map_app. cbn [map snd]. rewrite <- (map_length snd q1) at 1. apply delete_mid.
    + cbn [step]. rewrite (erase_outside f h c ps i I); [reflexivity|]. lia.
  - (* insert *)
    destruct Ho as [-> ->]. apply seq_rep_clean in HR as [I ->]. rewrite map_length.
    destruct (Z.leb_spec 0 i) as [H1|H1]; [destruct (Z.leb_spec i (Z.of_nat (length ps))) as [H2|H2]|]; cbn [andb].
    + assert (exists q1 q2, ps = q1 ++ q2 /\ Z.of_nat (length q1) = i) as (q1 & q2 & -> & <-).
      { exists (take (Z.to_nat i) ps), (drop (Z.to_nat i) ps). rewrite take_drop, take_length. split; [reflexivity|lia]. }
      rewrite Nat2Z.id, map_app.
      assert (T : take (length q1) (vals q1 ++ vals q2) = vals q1) by (apply take_app_alt; rewrite map_length; reflexivity).
      assert (D : drop (length q1) (vals q1 ++ vals q2) = vals q2) by (apply drop_app_alt; rewrite map_length; reflexivity).
      rewrite T, D. eapply (Push _ h (q1 ++ (h_free h, v) :: q2)); [reflexivity|reflexivity|reflexivity|apply insert_ok; assumption|reflexivity| |].
      * rewrite map_app. reflexivity.
      * rewrite !app_length. cbn [length]. lia.
    + cbn [step]. rewrite (insert_outside h c ps i v I); [reflexivity|]. lia.
    + cbn [step]. rewrite (insert_outside h c ps i v I); [reflexivity|]. lia.
  - (* clear *)
    cbn [step]. rewrite (clear_ok _ _ _ _ HQ). cbn [rbind]. exists h, (Coll 0 0 0), []. split; [reflexivity|].
    destruct HR as ((ND & F & F0) & _). split; [|split; [apply evolves_sub; intros a Ha; inversion Ha|cbn [length]; lia]].
    apply seq_rep_clean. split; [|reflexivity]. split; [repeat split; congruence|]. split; [constructor|]. split; [intros a Ha; inversion Ha|exact F0].
  - (* at *)
    subst l. cbn [step] in *. pose proof (at_ok h c p1 e i HQ) as E. destruct (nth_z (vals p1) i) as [v|]; rewrite E in *; [|reflexivity].
    apply Same; reflexivity.
  - subst l. cbn [step] in *. pose proof (first_ok h c p1 e HQ) as E. destruct (vals p1); rewrite E in *; [reflexivity|]. apply Same; reflexivity.
  - cbn [allowed] in Ho. subst d. apply seq_rep_clean in HR as [I ->]. cbn [step] in *. pose proof (last_ok h c ps I) as E.
    destruct (last (vals ps)); rewrite E in *; [|reflexivity]. apply Same; reflexivity.
  - subst l. apply Same; [reflexivity|]. cbn [step]. rewrite (index_of_ok eqv h c p1 e v HQ). reflexivity.
  - subst l. apply Same; [reflexivity|]. cbn [step]. rewrite (contains_ok eqv h c p1 e v HQ). reflexivity.
  - subst l. apply Same; [reflexivity|]. cbn [step]. destruct HQ as (_ & _ & ->). rewrite map_length. reflexivity.
  - subst l. apply Same; [reflexivity|]. cbn [step]. unfold is_empty. destruct HQ as (_ & _ & ->). destruct p1; reflexivity.
  - cbn [allowed] in Ho. subst d. apply seq_rep_clean in HR as [I ->]. apply Same; [reflexivity|].
    pose proof I as [(Hc & Hf & _) _]. cbn [step]. apply elements_ok; [exact Hc|exact Hf|lia].
Qed.
Theorem seq_runs k f m os : Z.of_nat (length os) <= int_max -> (length os <= f)%nat ->
  all_ok (seq_step' eqv) (allowed k) (replicate m ([], false)) os ->
  sys_run (step eqv k f) (start m) os = spec_run (seq_step' eqv) (replicate m ([], false)) os.
Proof. intros L1 L2. apply start_refines with (R := seq_rep); [apply seq_framed|apply seq_below|apply seq_refines; assumption|apply empty_rep]. Qed.
End Sequences.
