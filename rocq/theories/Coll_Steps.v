(** Every allowed call on a collection does what it does on the sequence it represents. *)
From Coq Require Import ZArith.
From Verif Require Import Base Coll_Model Coll_Spec Coll_Proofs.
Open Scope Z_scope.

Section Steps.
Context {V : Type}.
Implicit Types (h : heap V) (ps : list (N * V)) (c : coll).

Definition end_of ps : N := match last ps with Some (a, _) => a | None => 0%N end.
Definition rep h c ps : Prop :=
  chain h ps 0 /\ c_first c = start_of ps 0 /\ c_size c = Z.of_nat (length ps) /\ (ps <> [] -> c_last c = end_of ps).
Definition sound_in h ps : Prop := NoDup (addrs ps) /\ (forall a, a ∈ addrs ps -> (a < h_free h)%N) /\ (0 < h_free h)%N.
Definition inv h c ps : Prop := rep h c ps /\ sound_in h ps.
(** What a call may change. *)
Definition evolves h ps h' ps' : Prop :=
  (h_free h <= h_free h')%N /\ (forall a, a ∈ addrs ps' -> a ∈ addrs ps \/ (h_free h <= a)%N) /\
  (forall b, (b < h_free h)%N -> b ∉ addrs ps -> h_items h' !! b = h_items h !! b).
Lemma evolves_same h ps : evolves h ps h ps.
Proof. repeat split; [lia|auto]. Qed.
Lemma evolves_sub h ps ps' : (forall a, a ∈ addrs ps' -> a ∈ addrs ps) -> evolves h ps h ps'.
Proof. intros S. repeat split; [lia|auto]. Qed.

Lemma end_snoc ps a v : end_of (ps ++ [(a, v)]) = a.
Proof. unfold end_of. rewrite last_snoc. reflexivity. Qed.
Lemma end_cons x y ps : end_of (x :: y :: ps) = end_of (y :: ps).
Proof. reflexivity. Qed.
Lemma end_app p1 p2 : p2 <> [] -> end_of (p1 ++ p2) = end_of p2.
Proof.
  intros N0. destruct (exists_last N0) as (q & [a v] & ->). rewrite app_assoc, !end_snoc. reflexivity.
Qed.

Lemma new_chain h v : (0 < h_free h)%N -> chain (snd (new_item h v)) [(h_free h, v)] 0.
Proof.
  intros F. cbn [new_item snd chain start_of h_items]. split; [lia|]. split; [|exact I]. exists 0%N. apply lookup_insert.
Qed.
Lemma new_frame h v ps e : (forall a, a ∈ addrs ps -> (a < h_free h)%N) -> chain h ps e -> chain (snd (new_item h v)) ps e.
Proof.
  intros F. apply chain_frame. intros a Ha. cbn [new_item snd h_items]. rewrite lookup_insert_ne; [reflexivity|].
  intros <-. apply F in Ha. lia.
Qed.
Lemma fresh_not_in h ps : sound_in h ps -> h_free h ∉ addrs ps.
Proof. intros (_ & F & _) H. apply F in H. lia. Qed.

(** Appending a new item. *)
Lemma append_core h c ps v : inv h c ps ->
  exists h2, (if c_size c =? 0 then Ok (snd (new_item h v), h_free h)
              else let! h2 := set_next (snd (new_item h v)) (c_last c) (h_free h) in Ok (h2, c_first c))
      = Ok (h2, start_of (ps ++ [(h_free h, v)]) 0) /\
    chain h2 (ps ++ [(h_free h, v)]) 0 /\ h_free h2 = (h_free h + 1)%N /\
    (forall b, (b < h_free h)%N -> b ∉ addrs ps -> h_items h2 !! b = h_items h !! b).
Proof.
  intros [(Hc & Hf & Hs & Hl) S]. pose proof S as (ND & F & F0). destruct (decide (ps = [])) as [->|N0].
  - rewrite Hs. cbn [length Z.of_nat Z.eqb app start_of]. eexists. split; [reflexivity|]. split; [apply new_chain; exact F0|].
    split; [reflexivity|]. intros b Hb _. cbn [new_item snd h_items]. rewrite lookup_insert_ne by lia. reflexivity.
  - destruct (exists_last N0) as (p1 & [b w] & ->). rewrite (Hl N0), end_snoc.
    rewrite app_length in Hs. cbn [length] in Hs. replace (c_size c =? 0) with false by (symmetry; apply Z.eqb_neq; lia).
    assert (ND' : b ∉ addrs p1).
    { rewrite map_app in ND. apply NoDup_app in ND as (_ & D & _). intros Hb. apply (D b Hb). left. }
    destruct (link (snd (new_item h v)) p1 b w 0 (h_free h) (new_frame h v _ _ F Hc) ND') as (h2 & E & [K Kf] & C2).
    rewrite E. cbn [rbind]. exists h2. rewrite Hf. split; [rewrite !start_app; reflexivity|]. split.
    + apply chain_app. split; [exact C2|]. eapply chain_frame; [|apply (new_chain h v F0)].
      intros a Ha. apply K. apply elem_of_list_singleton in Ha as ->. intros E1. cbn [fst] in E1. apply (fresh_not_in h _ S).
      rewrite E1, map_app, elem_of_app. right. left.
    + split; [rewrite Kf; reflexivity|]. intros d Hd Hn. rewrite K.
      * cbn [new_item snd h_items]. rewrite lookup_insert_ne by lia. reflexivity.
      * intros ->. apply Hn. rewrite map_app, elem_of_app. right. left.
Qed.
Lemma sound_cons h h' ps ps' v : sound_in h ps -> h_free h' = (h_free h + 1)%N ->
  ps' ≡ₚ (h_free h, v) :: ps -> sound_in h' ps'.
Proof.
  intros S E P. pose proof S as (ND & F & F0). split; [|split; [|lia]].
  - rewrite P. cbn [map fst]. constructor; [apply fresh_not_in; exact S|exact ND].
  - intros a Ha. rewrite P in Ha. cbn [map fst] in Ha. apply elem_of_cons in Ha as [->|Ha]; [lia|apply F in Ha; lia].
Qed.
Lemma evolves_cons h h' ps ps' v : h_free h' = (h_free h + 1)%N -> ps' ≡ₚ (h_free h, v) :: ps ->
  (forall b, (b < h_free h)%N -> b ∉ addrs ps -> h_items h' !! b = h_items h !! b) -> evolves h ps h' ps'.
Proof.
  intros E P K. split; [lia|]. split; [|exact K]. intros a Ha. rewrite P in Ha. cbn [map fst] in Ha.
  apply elem_of_cons in Ha as [->|Ha]; [right; lia|left; exact Ha].
Qed.
Lemma grow_ok a b (n : nat) : Z.of_nat n < int_max -> grow (Coll a b (Z.of_nat n)) = Ok (Coll a b (Z.of_nat (S n))).
Proof.
  intros H. unfold grow. cbn [c_first c_last c_size]. replace (Z.of_nat n =? int_max) with false by (symmetry; apply Z.eqb_neq; lia).
  f_equal. f_equal. lia.
Qed.

Definition good_push (r : res (heap V * coll)) h ps ps' : Prop :=
  exists h' c', r = Ok (h', c') /\ inv h' c' ps' /\ evolves h ps h' ps'.
Lemma snoc_perm ps a (v : V) : ps ++ [(a, v)] ≡ₚ (a, v) :: ps.
Proof. rewrite Permutation_app_comm. reflexivity. Qed.
Lemma push_back_ok h c ps v : inv h c ps -> Z.of_nat (length ps) < int_max ->
  good_push (push_back h c v) h ps (ps ++ [(h_free h, v)]).
Proof.
  intros I L. destruct (append_core h c ps v I) as (h2 & E & C & Ef & K). unfold push_back.
  change (new_item h v) with (h_free h, snd (new_item h v)). cbv beta iota zeta. rewrite E. cbn [rbind fst snd].
  pose proof I as [(_ & _ & Hs & _) S]. rewrite Hs, grow_ok by exact L. cbn [rbind].
  exists h2. eexists. split; [reflexivity|]. split; [split|].
  - split; [exact C|]. cbn [c_first c_last c_size]. split; [reflexivity|]. split; [rewrite app_length; cbn [length]; lia|].
    intros _. rewrite end_snoc. reflexivity.
  - eapply sound_cons; [exact S|exact Ef|apply snoc_perm].
  - eapply evolves_cons; [exact Ef|apply snoc_perm|exact K].
Qed.
Lemma list_push_back_ok h c ps v : inv h c ps -> Z.of_nat (length ps) < int_max ->
  good_push (list_push_back h c v) h ps (ps ++ [(h_free h, v)]).
Proof.
  intros I L. destruct (append_core h c ps v I) as (h2 & E & C & Ef & K). unfold list_push_back.
  change (new_item h v) with (h_free h, snd (new_item h v)). cbv beta iota zeta. rewrite E. cbn [rbind fst snd].
  destruct (set_prev_ok h2 _ _ _ _ _ (c_last c) C) as (h3 & E3). rewrite E3. cbn [rbind].
  destruct (set_prev_chain _ _ _ _ E3) as (C3 & K3 & F3).
  pose proof I as [(_ & _ & Hs & _) S]. rewrite Hs, grow_ok by exact L. cbn [rbind].
  exists h3. eexists. split; [reflexivity|]. split; [split|].
  - split; [apply C3; exact C|]. cbn [c_first c_last c_size]. split; [reflexivity|]. split; [rewrite app_length; cbn [length]; lia|].
    intros _. rewrite end_snoc. reflexivity.
  - eapply sound_cons; [exact S|rewrite F3; exact Ef|apply snoc_perm].
  - eapply evolves_cons; [rewrite F3; exact Ef|apply snoc_perm|]. intros b Hb Hn. rewrite K3 by lia. apply K; assumption.
Qed.

(** A new item in front of a chain. *)
Lemma cons_core h ps v : chain h ps 0 -> sound_in h ps ->
  exists h2, set_next (snd (new_item h v)) (h_free h) (start_of ps 0) = Ok h2 /\ chain h2 ((h_free h, v) :: ps) 0 /\
    h_free h2 = (h_free h + 1)%N /\ (forall b, (b < h_free h)%N -> h_items h2 !! b = h_items h !! b).
Proof.
  intros Hc S. pose proof S as (ND & F & F0).
  destruct (link (snd (new_item h v)) [] (h_free h) v 0 (start_of ps 0)) as (h2 & E & [K Kf] & C2).
  - apply new_chain; exact F0.
  - intros H. inversion H.
  - exists h2. split; [exact E|]. split; [|split; [rewrite Kf; reflexivity|]].
    + change ((h_free h, v) :: ps) with ([(h_free h, v)] ++ ps). apply chain_app. split; [exact C2|].
      eapply chain_frame; [|apply (new_frame h v ps 0 F Hc)]. intros a Ha. apply K. intros ->. apply (fresh_not_in h ps S Ha).
    + intros b Hb. rewrite K by lia. cbn [new_item snd h_items]. rewrite lookup_insert_ne by lia. reflexivity.
Qed.
Lemma end_push ps a (v : V) : ps <> [] -> end_of ((a, v) :: ps) = end_of ps.
Proof. destruct ps; [congruence|reflexivity]. Qed.
Lemma vector_push_front_ok h c ps v : inv h c ps -> Z.of_nat (length ps) < int_max ->
  good_push (vector_push_front h c v) h ps ((h_free h, v) :: ps).
Proof.
  intros [(Hc & Hf & Hs & Hl) S] L. destruct (cons_core h ps v Hc S) as (h2 & E & C & Ef & K).
  unfold vector_push_front. change (new_item h v) with (h_free h, snd (new_item h v)). cbv beta iota zeta.
  rewrite Hf, E. cbn [rbind]. rewrite Hs, grow_ok by exact L. cbn [rbind]. exists h2. eexists. split; [reflexivity|]. split; [split|].
  - split; [exact C|]. cbn [c_first c_last c_size start_of]. split; [reflexivity|]. split; [reflexivity|]. intros _.
    destruct (decide (ps = [])) as [->|N0]; [reflexivity|]. replace (Z.of_nat (length ps) =? 0) with false.
    + rewrite end_push by exact N0. apply Hl. exact N0.
    + symmetry. apply Z.eqb_neq. destruct ps; [congruence|cbn [length]; lia].
  - eapply sound_cons; [exact S|exact Ef|reflexivity].
  - eapply evolves_cons; [exact Ef|reflexivity|]. intros b Hb _. apply K. exact Hb.
Qed.
Lemma double_push_front_ok h c ps v : inv h c ps -> ps <> [] -> Z.of_nat (length ps) < int_max ->
  good_push (double_push_front h c v) h ps ((h_free h, v) :: ps).
Proof.
  intros [(Hc & Hf & Hs & Hl) S] N0 L. destruct (cons_core h ps v Hc S) as (h2 & E & C & Ef & K).
  unfold double_push_front. change (new_item h v) with (h_free h, snd (new_item h v)). cbv beta iota zeta.
  rewrite Hf, E. cbn [rbind]. rewrite Hs, grow_ok by exact L. cbn [rbind]. exists h2. eexists. split; [reflexivity|]. split; [split|].
  - split; [exact C|]. cbn [c_first c_last c_size start_of]. split; [reflexivity|]. split; [reflexivity|]. intros _.
    rewrite end_push by exact N0. apply Hl. exact N0.
  - eapply sound_cons; [exact S|exact Ef|reflexivity].
  - eapply evolves_cons; [exact Ef|reflexivity|]. intros b Hb _. apply K. exact Hb.
Qed.
Lemma list_push_front_ok h c ps v : inv h c ps -> Z.of_nat (length ps) < int_max ->
  good_push (list_push_front h c v) h ps ((h_free h, v) :: ps).
Proof.
  intros [(Hc & Hf & Hs & Hl) S] L. pose proof S as (ND & F & F0). unfold list_push_front.
  change (new_item h v) with (h_free h, snd (new_item h v)). cbv beta iota zeta.
  destruct (decide (ps = [])) as [->|N0].
  - rewrite Hs. cbn [length]. change (Z.of_nat 0 =? 0) with true. cbn [rbind fst snd].
    rewrite (grow_ok (h_free h) (h_free h) 0 L). cbn [rbind].
    eexists _, _. split; [reflexivity|]. split; [split|].
    + split; [apply new_chain; exact F0|]. auto.
    + eapply sound_cons; [exact S|reflexivity|reflexivity].
    + eapply evolves_cons; [reflexivity|reflexivity|]. intros b Hb _. cbn [new_item snd h_items]. rewrite lookup_insert_ne by lia. reflexivity.
  - destruct (cons_core h ps v Hc S) as (h2 & E & C & Ef & K). destruct ps as [|[a w] ps]; [congruence|].
    rewrite Hs. replace (Z.of_nat (length ((a, w) :: ps)) =? 0) with false by (symmetry; apply Z.eqb_neq; cbn [length]; lia).
    rewrite Hf, E. cbn [rbind start_of]. destruct (set_prev_ok h2 [(h_free h, v)] 0 a w ps (h_free h) C) as (h3 & E3).
    rewrite E3. cbn [rbind fst snd]. destruct (set_prev_chain _ _ _ _ E3) as (C3 & K3 & F3).
    rewrite grow_ok by exact L. cbn [rbind]. exists h3. eexists. split; [reflexivity|]. split; [split|].
    + split; [apply C3; exact C|]. cbn [c_first c_last c_size start_of]. split; [reflexivity|]. split; [reflexivity|].
      intros _. rewrite end_push by discriminate. apply Hl. discriminate.
    + eapply sound_cons; [exact S|rewrite F3; exact Ef|reflexivity].
    + eapply evolves_cons; [rewrite F3; exact Ef|reflexivity|]. intros b Hb Hn. rewrite K3; [apply K; exact Hb|].
      intros ->. apply Hn. left.
Qed.

Lemma pop_front_ok h c a v ps : inv h c ((a, v) :: ps) -> exists c', pop_front h c = Ok c' /\ inv h c' ps.
Proof.
  intros [(Hc & Hf & Hs & Hl) (ND & F & F0)]. unfold pop_front. rewrite Hs.
  replace (Z.of_nat (length ((a, v) :: ps)) <=? 0) with false by (symmetry; apply Z.leb_gt; cbn [length]; lia).
  destruct (get_head _ _ _ _ _ Hc) as (i & Hg & _ & Hn). unfold next_of. rewrite Hf. cbn [start_of]. rewrite Hg. cbn [rbind]. rewrite Hn.
  eexists. split; [reflexivity|]. split.
  - cbn [chain] in Hc. split; [tauto|]. cbn [c_first c_last c_size]. split; [reflexivity|]. split; [cbn [length]; lia|].
    intros N0. rewrite (Hl ltac:(discriminate)). apply end_push. exact N0.
  - cbn [map fst] in *. apply NoDup_cons in ND as [_ ND]. split; [exact ND|]. split; [|exact F0].
    intros b Hb. apply F. right. exact Hb.
Qed.

(** erase *)
Lemma second_last h p1 a v b w f : chain h (p1 ++ [(a, v); (b, w)]) 0 -> (length p1 < f)%nat ->
  to_second_last f h (start_of (p1 ++ [(a, v); (b, w)]) 0) = Ok a.
Proof.
  revert f. induction p1 as [|[x y] p1 IH]; intros f H L; (destruct f as [|f]; [cbn [length] in L; lia|]).
  - cbn [app start_of to_second_last] in *. destruct (get_head _ _ _ _ _ H) as (i & Hg & _ & Hn).
    unfold next_of at 1. rewrite Hg. cbn [rbind]. rewrite Hn. cbn [start_of].
    destruct (get_in h [(a, v)] 0 b w [] H) as (j & Hj & _ & Hm). unfold next_of. rewrite Hj. cbn [rbind]. rewrite Hm. reflexivity.
  - cbn [app start_of to_second_last] in *. destruct (get_head _ _ _ _ _ H) as (i & Hg & _ & Hn).
    unfold next_of at 1. rewrite Hg. cbn [rbind]. rewrite Hn.
    assert (H' : chain h (p1 ++ [(a, v); (b, w)]) 0) by (cbn [chain] in H; tauto).
    destruct (p1 ++ [(a, v); (b, w)]) as [|[x' y'] q] eqn:Eq; [destruct p1; discriminate|]. cbn [start_of] in *.
    destruct (get_head _ _ _ _ _ H') as (j & Hj & _ & Hm). unfold next_of at 1. rewrite Hj. cbn [rbind]. rewrite Hm.
    assert (Q : q <> []) by (destruct p1 as [|? [|? ?]]; cbn in Eq; injection Eq as ? ?; subst; discriminate).
    destruct q as [|[x2 y2] q]; [congruence|]. cbn [start_of]. cbn [chain] in H'. unfold null.
    replace (x2 =? 0)%N with false by (symmetry; apply N.eqb_neq; tauto). apply IH; [exact H'|cbn [length] in L; lia].
Qed.
Lemma sub_sound h h' ps ps' r : sound_in h ps -> h_free h' = h_free h -> ps ≡ₚ ps' ++ r -> sound_in h' ps'.
Proof.
  intros (ND & F & F0) E P. rewrite P, map_app in ND. apply NoDup_app in ND as (ND & _ & _). split; [exact ND|].
  split; [|lia]. intros a Ha. rewrite E. apply F. rewrite P, map_app, elem_of_app. left. exact Ha.
Qed.
Lemma sub_evolves h h' ps ps' r : h_free h' = h_free h -> ps ≡ₚ ps' ++ r ->
  (forall b, b ∉ addrs ps -> h_items h' !! b = h_items h !! b) -> evolves h ps h' ps'.
Proof.
  intros E P K. split; [lia|]. split; [|intros; apply K; assumption]. intros a Ha. left.
  rewrite P, map_app, elem_of_app. left. exact Ha.
Qed.
Lemma nodup_mid (p1 : list (N * V)) a v p2 : NoDup (addrs (p1 ++ (a, v) :: p2)) -> a ∉ addrs p1 /\ a ∉ addrs p2.
Proof.
  rewrite map_app. cbn [map fst]. intros ND. apply NoDup_app in ND as (_ & D & ND). apply NoDup_cons in ND as [ND _].
  split; [|exact ND]. intros H. apply (D a H). left.
Qed.
Definition good_erase (r : res (heap V * coll)) h (ps ps' : list (N * V)) : Prop :=
  exists h' c', r = Ok (h', c') /\ inv h' c' ps' /\ evolves h ps h' ps'.
Lemma erase_ok h c p1 a v p2 f : inv h c (p1 ++ (a, v) :: p2) -> (length (p1 ++ (a, v) :: p2) < f)%nat ->
  good_erase (erase f h c (Z.of_nat (length p1))) h (p1 ++ (a, v) :: p2) (p1 ++ p2).
Proof.
  set (ps := p1 ++ (a, v) :: p2). intros [(Hc & Hf & Hs & Hl) So] L. unfold erase.
  assert (Len : length ps = (length p1 + S (length p2))%nat) by (unfold ps; rewrite app_length; reflexivity).
  assert (P : ps ≡ₚ (p1 ++ p2) ++ [(a, v)]) by (unfold ps; rewrite (Permutation_app_comm (p1 ++ p2)); symmetry; exact (Permutation_middle _ _ _)).
  rewrite Hs. replace ((Z.of_nat (length p1) <? 0) || (Z.of_nat (length ps) <? Z.of_nat (length p1))) with false
    by (symmetry; apply orb_false_iff; split; apply Z.ltb_ge; lia).
  (* the size afterwards *)
  assert (G : forall h' a' b', chain h' (p1 ++ p2) 0 -> h_free h' = h_free h ->
    (forall b, b ∉ addrs ps -> h_items h' !! b = h_items h !! b) -> a' = start_of (p1 ++ p2) 0 ->
    (p1 ++ p2 <> [] -> b' = end_of (p1 ++ p2)) ->
    good_erase (let n := Z.of_nat (length ps) - 1 in Ok (h', if n =? 0 then Coll 0 0 0 else Coll a' b' n)) h ps (p1 ++ p2)).
  { intros h' a' b' C' F' K' Ea Eb. cbn zeta. eexists _, _. split; [reflexivity|]. split; [split|].
    - destruct (Z.eqb_spec (Z.of_nat (length ps) - 1) 0) as [E0|E0].
      + assert (p1 ++ p2 = []) as E1 by (apply nil_length_inv; rewrite app_length; lia). rewrite E1. repeat split.
      + split; [exact C'|]. cbn [c_first c_last c_size]. split; [exact Ea|]. split; [rewrite app_length; lia|exact Eb].
    - eapply sub_sound; eauto.
    - eapply sub_evolves; eauto. }
  destruct (decide (p1 = [])) as [->|N1].
  - (* the first element *)
    cbn [length]. change (Z.of_nat 0 =? 0) with true. cbn [app] in *. subst ps. destruct (get_head _ _ _ _ _ Hc) as (i & Hg & _ & Hn).
    unfold next_of. rewrite Hf. cbn [start_of]. rewrite Hg. cbn [rbind fst snd c_first c_last c_size]. rewrite Hn.
    apply G; auto.
    + cbn [chain] in Hc. tauto.
    + intros N0. rewrite Hl by discriminate. apply end_push. exact N0.
  - replace (Z.of_nat (length p1) =? 0) with false by (symmetry; apply Z.eqb_neq; destruct p1; [congruence|cbn [length]; lia]).
    destruct (exists_last N1) as (q & [d x] & ->). rewrite app_length in *. cbn [length] in *.
    assert (Hd : d ∉ addrs q).
    { destruct So as (ND & _). unfold ps in ND. rewrite <- app_assoc in ND. apply nodup_mid in ND. tauto. }
    pose proof Hc as Hc'. unfold ps in Hc'. apply chain_app in Hc' as [C1 C2].
    destruct (link h q d x _ (start_of p2 0) C1 Hd) as (h' & E & [K Kf] & C').
    assert (Hd2 : d ∉ addrs p2).
    { destruct So as (ND & _). unfold ps in ND. rewrite <- app_assoc in ND. apply nodup_mid in ND. cbn [app map fst] in ND.
      destruct ND as [_ ND]. intros H. apply ND. right. exact H. }
    assert (C3 : chain h' ((q ++ [(d, x)]) ++ p2) 0).
    { apply chain_app. split; [exact C'|]. eapply chain_frame; [|cbn [chain] in C2; apply C2]. intros b Hb. apply K. intros ->. contradiction. }
    assert (K' : forall b, b ∉ addrs ps -> h_items h' !! b = h_items h !! b).
    { intros b Hb. apply K. intros ->. apply Hb. unfold ps. rewrite !map_app, !elem_of_app. left. right. left. }
    destruct p2 as [|[y z] p2].
    + (* the last element *)
      replace (Z.of_nat (length q + 1) =? Z.of_nat (length ps) - 1) with true by (symmetry; apply Z.eqb_eq; cbn [length] in Len; lia).
      assert (Eps : ps = q ++ [(d, x); (a, v)]) by (unfold ps; rewrite <- app_assoc; reflexivity).
      rewrite Hf, Eps, second_last; [|rewrite <- Eps; exact Hc|cbn [length] in Len; lia]. cbn [rbind start_of] in *. rewrite E.
      cbn [rbind fst snd c_first c_last c_size]. rewrite <- Eps. apply G; auto.
      * rewrite app_nil_r. unfold ps. rewrite !start_app. reflexivity.
      * intros _. rewrite app_nil_r, end_snoc. reflexivity.
    + replace (Z.of_nat (length q + 1) =? Z.of_nat (length ps) - 1) with false by (symmetry; apply Z.eqb_neq; cbn [length] in Len; lia).
      replace (Z.to_nat (Z.of_nat (length q + 1) - 1)) with (length q) by lia.
      assert (Eps : ps = q ++ (d, x) :: (a, v) :: (y, z) :: p2) by (unfold ps; rewrite <- app_assoc; reflexivity).
      rewrite Hf. pose proof (walk_chain h q ((d, x) :: (a, v) :: (y, z) :: p2) 0) as W. rewrite <- Eps in W.
      rewrite (W Hc). cbn [rbind start_of].
      rewrite Eps in Hc. destruct (get_in _ _ _ _ _ _ Hc) as (i & Hg & _ & Hn). unfold next_of at 1. rewrite Hg. cbn [rbind]. rewrite Hn.
      cbn [start_of]. assert (Hc' : chain h ((q ++ [(d, x)]) ++ (a, v) :: (y, z) :: p2) 0) by (rewrite <- app_assoc; exact Hc).
      destruct (get_in _ _ _ _ _ _ Hc') as (j & Hj & _ & Hm).
      assert (Na : null a = false).
      { unfold null. apply N.eqb_neq. apply chain_app in Hc' as [_ Hc']. cbn [chain] in Hc'. tauto. }
      rewrite Na. unfold next_of. rewrite Hj. cbn [rbind]. rewrite Hm. cbn [start_of] in *. rewrite E.
      cbn [rbind fst snd]. rewrite Hs. apply G; auto.
      * rewrite Hf. unfold ps. rewrite !start_app. reflexivity.
      * intros _. rewrite Hl by (rewrite Eps; destruct q; discriminate). unfold ps. rewrite !end_app by discriminate. reflexivity.
Qed.
Lemma erase_outside f h c ps i : inv h c ps -> (i < 0 \/ Z.of_nat (length ps) < i) -> erase f h c i = Throw "OutOfBoundsException".
Proof.
  intros [(_ & _ & Hs & _) _] H. unfold erase. rewrite Hs. replace ((i <? 0) || (Z.of_nat (length ps) <? i)) with true; [reflexivity|].
  symmetry. apply orb_true_iff. destruct H; [left; apply Z.ltb_lt; lia|right; apply Z.ltb_lt; lia].
Qed.

(** Vector::insert *)
Lemma insert_ok h c p1 p2 v : inv h c (p1 ++ p2) -> Z.of_nat (length (p1 ++ p2)) < int_max ->
  good_push (vector_insert h c (Z.of_nat (length p1)) v) h (p1 ++ p2) (p1 ++ (h_free h, v) :: p2).
Proof.
  set (ps := p1 ++ p2). intros I L. pose proof I as [(Hc & Hf & Hs & Hl) S]. pose proof S as (ND & F & F0). unfold vector_insert.
  assert (Len : length ps = (length p1 + length p2)%nat) by (unfold ps; rewrite app_length; reflexivity).
  assert (P : p1 ++ (h_free h, v) :: p2 ≡ₚ (h_free h, v) :: ps) by (unfold ps; symmetry; exact (Permutation_middle _ _ _)).
  rewrite Hs. replace ((Z.of_nat (length p1) <? 0) || (Z.of_nat (length ps) <? Z.of_nat (length p1))) with false
    by (symmetry; apply orb_false_iff; split; apply Z.ltb_ge; lia).
  change (new_item h v) with (h_free h, snd (new_item h v)). cbv beta iota zeta.
  assert (G : forall h' a' b', chain h' (p1 ++ (h_free h, v) :: p2) 0 -> h_free h' = (h_free h + 1)%N ->
    (forall b, (b < h_free h)%N -> b ∉ addrs ps -> h_items h' !! b = h_items h !! b) ->
    a' = start_of (p1 ++ (h_free h, v) :: p2) 0 -> b' = end_of (p1 ++ (h_free h, v) :: p2) ->
    good_push (let! c' := grow (Coll a' b' (Z.of_nat (length ps))) in Ok (h', c')) h ps (p1 ++ (h_free h, v) :: p2)).
  { intros h' a' b' C' F' K' Ea Eb. rewrite grow_ok by exact L. cbn [rbind]. eexists _, _. split; [reflexivity|]. split; [split|].
    - split; [exact C'|]. cbn [c_first c_last c_size]. split; [exact Ea|]. split; [rewrite app_length; cbn [length]; lia|auto].
    - eapply sound_cons; eauto.
    - eapply evolves_cons; eauto. }
  assert (K1 : forall b, (b < h_free h)%N -> h_items (snd (new_item h v)) !! b = h_items h !! b).
  { intros b Hb. cbn [new_item snd h_items]. rewrite lookup_insert_ne by lia. reflexivity. }
  destruct (decide (ps = [])) as [N0|N0].
  { (* the first item *)
    rewrite Hf, N0. cbn [start_of]. change (null 0) with true. cbn [rbind fst snd]. rewrite <- N0. subst ps.
    apply app_eq_nil in N0 as [-> ->]. apply G; auto. apply new_chain. exact F0. }
  assert (Nf : null (c_first c) = false).
  { rewrite Hf. destruct ps as [|[b w] ps']; [congruence|]. cbn [start_of]. unfold null. apply N.eqb_neq. cbn [chain] in Hc. tauto. }
  rewrite Nf. destruct (decide (p1 = [])) as [->|N1].
  - cbn [length]. change (Z.of_nat 0 =? 0) with true. destruct (cons_core h _ v Hc S) as (h2 & E & C & Ef & K).
    rewrite Hf, E. cbn [rbind fst snd]. cbn [app] in *. apply G; auto.
    unfold ps in *. rewrite end_push by exact N0. apply Hl. exact N0.
  - replace (Z.of_nat (length p1) =? 0) with false by (symmetry; apply Z.eqb_neq; destruct p1; [congruence|cbn [length]; lia]).
    destruct p2 as [|[y z] p2].
    + replace (Z.of_nat (length p1) =? Z.of_nat (length ps)) with true
        by (symmetry; apply Z.eqb_eq; rewrite Len; cbn [length]; lia).
      destruct (append_core h c _ v I) as (h2 & E & C & Ef & K).
      assert (Eps : ps = p1) by (unfold ps; apply app_nil_r).
      replace (c_size c =? 0) with false in E by (symmetry; apply Z.eqb_neq; rewrite Hs, Eps; destruct p1; [congruence|cbn [length]; lia]).
      destruct (set_next (snd (new_item h v)) (c_last c) (h_free h)) as [h3| | |]; cbn [rbind] in *; try discriminate.
      injection E as -> E1. cbn [fst snd]. rewrite Eps in C. apply G; auto.
      * rewrite E1, Eps. reflexivity.
      * rewrite end_snoc. reflexivity.
    + replace (Z.of_nat (length p1) =? Z.of_nat (length ps)) with false
        by (symmetry; apply Z.eqb_neq; rewrite Len; cbn [length]; lia).
      destruct (exists_last N1) as (q & [t u] & ->).
      rewrite app_length. cbn [length]. replace (Z.to_nat (Z.of_nat (length q + 1) - 1)) with (length q) by lia.
      assert (Eps : ps = q ++ (t, u) :: (y, z) :: p2) by (unfold ps; rewrite <- app_assoc; reflexivity).
      pose proof (new_frame h v _ _ F Hc) as C1. rewrite Hf.
      pose proof (walk_chain (snd (new_item h v)) q ((t, u) :: (y, z) :: p2) 0) as W. rewrite <- Eps in W. rewrite (W C1). cbn [rbind start_of].
      rewrite Eps in C1. rewrite Eps in ND.
      destruct (get_in _ _ _ _ _ _ C1) as (i & Hg & _ & Hn). unfold next_of. rewrite Hg. cbn [rbind]. rewrite Hn.
      pose proof (nodup_mid _ _ _ _ ND) as [Ht1 Ht2].
      pose proof (fresh_not_in h _ S) as Fr. cbn [start_of]. rewrite Eps in Fr.
      destruct (link (snd (new_item h v)) [] (h_free h) v 0 y) as (h2 & E2 & [K2 F2] & C2); [apply new_chain; exact F0|intros H; inversion H|].
      rewrite E2. cbn [rbind].
      assert (C1' : chain h2 (q ++ (t, u) :: (y, z) :: p2) 0).
      { eapply chain_frame; [|exact C1]. intros e He. apply K2. intros ->. contradiction. }
      replace (q ++ (t, u) :: (y, z) :: p2) with ((q ++ [(t, u)]) ++ (y, z) :: p2) in C1' by (rewrite <- app_assoc; reflexivity).
      apply chain_app in C1' as [Ca Cb]. destruct (link h2 q t u _ (h_free h) Ca Ht1) as (h3 & E3 & [K3 F3] & C3). rewrite E3.
      cbn [rbind fst snd]. destruct c as [cf cl cs]. cbn [c_first c_last c_size] in *. subst cs. rewrite map_app in Fr. cbn [map fst] in Fr. rewrite elem_of_app in Fr.
      assert (Ft : t <> h_free h) by (intros ->; apply Fr; right; left).
      apply G.
      * apply chain_app. split; [exact C3|]. change ((h_free h, v) :: (y, z) :: p2) with ([(h_free h, v)] ++ (y, z) :: p2).
        apply chain_app. split.
        -- eapply chain_frame; [|exact C2]. intros e He. apply elem_of_list_singleton in He as ->. apply K3. cbn [fst]. congruence.
        -- eapply chain_frame; [|exact Cb]. intros e He. apply K3. intros ->. contradiction.
      * rewrite F3, F2. reflexivity.
      * intros e He Hne. rewrite K3, K2; [apply K1; exact He|lia|]. intros ->. apply Hne. rewrite Eps.
        rewrite map_app, elem_of_app. right. left.
      * rewrite Hf. unfold ps. rewrite !start_app. reflexivity.
      * rewrite Hl by exact N0. unfold ps. rewrite !end_app by discriminate. reflexivity.
Qed.
Lemma insert_outside h c ps i v : inv h c ps -> (i < 0 \/ Z.of_nat (length ps) < i) -> vector_insert h c i v = Throw "OutOfBoundsException".
Proof.
  intros [(_ & _ & Hs & _) _] H. unfold vector_insert. rewrite Hs. replace ((i <? 0) || (Z.of_nat (length ps) <? i)) with true; [reflexivity|].
  symmetry. apply orb_true_iff. destruct H; [left; apply Z.ltb_lt; lia|right; apply Z.ltb_lt; lia].
Qed.

(** Queries look only at the first mSize items, and not at mLast. *)
Definition qrep h c ps e : Prop := chain h ps e /\ c_first c = start_of ps e /\ c_size c = Z.of_nat (length ps).
Lemma inv_qrep h c ps : inv h c ps -> qrep h c ps 0.
Proof. intros [(Hc & Hf & Hs & _) _]. repeat split; assumption. Qed.
Lemma at_ok h c ps e i : qrep h c ps e -> at_ h c i = match nth_z (vals ps) i with Some v => Ok v | None => outside end.
Proof.
  intros (Hc & Hf & Hs). unfold at_, nth_z. rewrite Hs. destruct (Z.ltb_spec i 0); [reflexivity|]. cbn [orb].
  rewrite list_lookup_fmap. destruct (Z.leb_spec (Z.of_nat (length ps)) i) as [L|L].
  - rewrite lookup_ge_None_2 by lia. reflexivity.
  - rewrite Hf, walk_take by (assumption || lia). cbn [rbind].
    destruct (lookup_lt_is_Some_2 ps (Z.to_nat i) ltac:(lia)) as [[a v] E]. rewrite E. cbn [option_fmap option_map snd fmap].
    rewrite (drop_S _ _ _ E). cbn [start_of]. apply elem_of_list_split_length in E as (q & r & -> & _).
    destruct (get_in _ _ _ _ _ _ Hc) as (it & Hg & Hv & _). rewrite Hg. cbn [rbind]. rewrite Hv. reflexivity.
Qed.
Lemma index_loop_ok eqv h ps e v i : chain h ps e ->
  index_loop eqv h (start_of ps e) v i (length ps) = Ok (match first_index eqv (vals ps) v with Some j => i + Z.of_nat j | None => -1 end).
Proof.
  revert i. induction ps as [|[a w] ps IH]; intros i H; [reflexivity|]. cbn [length index_loop start_of map snd first_index].
  destruct (get_head _ _ _ _ _ H) as (it & Hg & Hv & Hn). rewrite Hg. cbn [rbind]. rewrite Hv. destruct (eqv w v).
  - f_equal. lia.
  - rewrite Hn, IH by (cbn [chain] in H; tauto). destruct (first_index eqv (vals ps) v); cbn [option_map]; f_equal. lia.
Qed.
Lemma index_of_ok eqv h c ps e v : qrep h c ps e ->
  index_of eqv h c v = Ok (match first_index eqv (vals ps) v with Some j => Z.of_nat j | None => -1 end).
Proof.
  intros (Hc & Hf & Hs). unfold index_of. rewrite Hs, Nat2Z.id, Hf, index_loop_ok by exact Hc.
  destruct (first_index eqv (vals ps) v); reflexivity.
Qed.
Lemma first_index_exists eqv (l : list V) v : (match first_index eqv l v with Some _ => true | None => false end) = existsb (fun x => eqv x v) l.
Proof.
  induction l as [|x l IH]; [reflexivity|]. cbn [first_index existsb]. destruct (eqv x v); [reflexivity|]. rewrite <- IH.
  destruct (first_index eqv l v); reflexivity.
Qed.
Lemma contains_ok eqv h c ps e v : qrep h c ps e -> contains eqv h c v = Ok (existsb (fun x => eqv x v) (vals ps)).
Proof.
  intros I. unfold contains. rewrite (index_of_ok eqv h c ps e v I), <- first_index_exists. cbn [rbind]. f_equal.
  destruct (first_index eqv (vals ps) v) as [j|]; [|reflexivity]. apply negb_true_iff. apply Z.eqb_neq. lia.
Qed.
Lemma first_ok h c ps e : qrep h c ps e -> first h c = match vals ps with v :: _ => Ok v | [] => outside end.
Proof.
  intros (Hc & Hf & Hs). unfold first. rewrite Hs. destruct ps as [|[a v] ps]; [reflexivity|].
  replace (Z.of_nat (length ((a, v) :: ps)) =? 0) with false by (symmetry; apply Z.eqb_neq; cbn [length]; lia).
  rewrite Hf. destruct (get_head _ _ _ _ _ Hc) as (i & Hg & Hv & _). cbn [start_of]. rewrite Hg. cbn [rbind map snd]. rewrite Hv. reflexivity.
Qed.
Lemma last_ok h c ps : inv h c ps -> last_ h c = match last (vals ps) with Some v => Ok v | None => outside end.
Proof.
  intros [(Hc & Hf & Hs & Hl) _]. unfold last_. rewrite Hs. destruct (decide (ps = [])) as [->|N0]; [reflexivity|].
  rewrite (Hl N0). destruct (exists_last N0) as (q & [a v] & ->). rewrite end_snoc, map_app. cbn [map snd]. rewrite last_snoc.
  rewrite app_length. cbn [length]. replace (Z.of_nat (length q + 1) =? 0) with false by (symmetry; apply Z.eqb_neq; lia).
  destruct (get_in _ _ _ _ _ _ Hc) as (i & Hg & Hv & _). rewrite Hg. cbn [rbind]. rewrite Hv. reflexivity.
Qed.
Lemma clear_ok h c ps e : qrep h c ps e -> clear h c = Ok (Coll 0 0 0).
Proof.
  intros (Hc & Hf & Hs). unfold clear. rewrite Hs, Nat2Z.id, Hf, walk_take by (assumption || lia). reflexivity.
Qed.

(** Iterators. *)
Lemma drain_rest f h it ps : (length ps < f)%nat -> chain h ps 0 -> null (it_first it) = false ->
  null (it_cur it) = false -> next_of h (it_cur it) = Ok (start_of ps 0) ->
  drain f h it = Ok (vals ps, Iter (match ps with [] => it_cur it | _ => end_of ps end) (it_first it)).
Proof.
  revert f it. induction ps as [|[a v] ps IH]; intros f it L H N1 N2 E; (destruct f as [|f]; [cbn [length] in L; lia|]).
  - cbn [drain]. unfold has_next. rewrite N1, N2, E. destruct it. reflexivity.
  - cbn [drain]. unfold has_next. rewrite N1, N2, E. cbn [rbind start_of].
    assert (Na : null a = false) by (unfold null; apply N.eqb_neq; cbn [chain] in H; tauto). rewrite Na. cbn [negb].
    unfold next, has_next. rewrite N1, N2, E. cbn [rbind start_of]. rewrite Na. cbn [negb].
    destruct (get_head _ _ _ _ _ H) as (i & Hg & Hv & Hn). rewrite Hg. cbn [rbind fst snd].
    rewrite IH; cbn [it_first it_cur]; auto.
    + cbn [rbind fst snd map]. rewrite Hv. f_equal. f_equal. f_equal. destruct ps; reflexivity.
    + cbn [length] in L. lia.
    + cbn [chain] in H. tauto.
    + unfold next_of. rewrite Hg. cbn [rbind]. rewrite Hn. reflexivity.
Qed.
Lemma drain_ok f h c ps : chain h ps 0 -> c_first c = start_of ps 0 -> (length ps < f)%nat ->
  exists it, drain f h (iterator c) = Ok (vals ps, it) /\ has_next h it = Ok false.
Proof.
  intros Hc Hf L. unfold iterator. rewrite Hf. destruct f as [|f]; [lia|]. destruct ps as [|[a v] ps].
  - eexists. split; reflexivity.
  - cbn [start_of]. assert (Na : null a = false) by (unfold null; apply N.eqb_neq; cbn [chain] in Hc; tauto).
    cbn [drain]. unfold has_next at 1. cbn [it_first it_cur]. rewrite Na. change (null 0) with true. cbn [negb rbind].
    unfold next at 1, has_next at 1. cbn [it_first it_cur]. rewrite Na. change (null 0) with true. cbn [negb rbind].
    destruct (get_head _ _ _ _ _ Hc) as (i & Hg & Hv & Hn). rewrite Hg. cbn [rbind fst snd].
    assert (H' : chain h ps 0) by (cbn [chain] in Hc; tauto).
    rewrite (drain_rest f h _ ps); cbn [it_first it_cur]; auto.
    + cbn [rbind fst snd map]. rewrite Hv. eexists. split; [reflexivity|]. unfold has_next. cbn [it_first it_cur]. rewrite Na.
      destruct ps as [|[b w] ps].
      * rewrite Na. unfold next_of. rewrite Hg. cbn [rbind]. rewrite Hn. reflexivity.
      * destruct (exists_last (l := (b, w) :: ps) ltac:(discriminate)) as (q & [d x] & Eq). rewrite Eq in *. rewrite end_snoc.
        destruct (get_in _ _ _ _ _ _ H') as (j & Hj & _ & Hm).
        assert (Nd : null d = false).
        { unfold null. apply N.eqb_neq. apply chain_app in H' as [_ H']. cbn [chain] in H'. tauto. }
        rewrite Nd. unfold next_of. rewrite Hj. cbn [rbind]. rewrite Hm. reflexivity.
    + cbn [length] in L. lia.
    + unfold next_of. rewrite Hg. cbn [rbind]. rewrite Hn. reflexivity.
Qed.
Lemma elements_ok f h c ps : chain h ps 0 -> c_first c = start_of ps 0 -> (length ps < f)%nat ->
  all_elements f h c = Ok (h, c, AList (vals ps) outside).
Proof.
  intros Hc Hf L. destruct (drain_ok f h c ps Hc Hf L) as (it & E & En). unfold all_elements. rewrite E. cbn [rbind fst snd].
  unfold next. rewrite En. reflexivity.
Qed.

(** erase does not look at mLast. *)
Lemma erase_last f h a b b' n i :
  match erase f h (Coll a b n) i, erase f h (Coll a b' n) i with
  | Ok (h1, c1), Ok (h2, c2) => h1 = h2 /\ c_first c1 = c_first c2 /\ c_size c1 = c_size c2
  | Throw e, Throw e' => e = e'
  | UB, UB | Fuel, Fuel => True
  | _, _ => False
  end.
Proof.
  unfold erase. cbn [c_first c_last c_size]. destruct ((i <? 0) || (n <? i)); [reflexivity|].
  assert (F : forall h1 c1 c2, c_first c1 = c_first c2 -> c_size c1 = c_size c2 ->
    match (let n0 := c_size c1 - 1 in Ok (h1, if n0 =? 0 then Coll 0 0 0 else Coll (c_first c1) (c_last c1) n0)),
          (let n0 := c_size c2 - 1 in Ok (h1, if n0 =? 0 then Coll 0 0 0 else Coll (c_first c2) (c_last c2) n0)) with
    | Ok (h1, c1), Ok (h2, c2) => h1 = h2 /\ c_first c1 = c_first c2 /\ c_size c1 = c_size c2
    | Throw e, Throw e' => e = e'
    | UB, UB | Fuel, Fuel => True
    | _, _ => False
    end : Prop).
  { intros h1 c1 c2 -> ->. cbn zeta. destruct (c_size c2 - 1 =? 0); auto. }
  destruct (i =? 0);
    [|destruct (i =? n - 1)].
  - destruct (next_of h a); cbn [rbind fst snd]; try reflexivity; try exact I. apply F; reflexivity.
  - destruct (to_second_last f h a) as [x| | |]; cbn [rbind]; try reflexivity; try exact I.
    destruct (set_next h x 0); cbn [rbind fst snd]; try reflexivity; try exact I. apply F; reflexivity.
  - destruct (walk h a (Z.to_nat (i - 1))) as [x| | |]; cbn [rbind]; try reflexivity; try exact I.
    destruct (next_of h x) as [y| | |]; cbn [rbind]; try reflexivity; try exact I.
    destruct (null y); cbn [rbind fst snd]; [apply F; reflexivity|].
    destruct (next_of h y) as [z| | |]; cbn [rbind]; try reflexivity; try exact I.
    destruct (set_next h x z); cbn [rbind fst snd]; try reflexivity; try exact I. apply F; reflexivity.
Qed.
End Steps.
