(** Linked chains and the operations on them. *)
From Coq Require Import ZArith.
From Verif Require Import Base Coll_Model Coll_Spec.
Open Scope Z_scope.

Section Chains.
Context {V : Type}.
Implicit Types (h : heap V) (ps : list (N * V)) (c : coll).

(** The address a chain starts with, [e] if it is empty. *)
Definition start_of ps (e : N) : N := match ps with [] => e | (a, _) :: _ => a end.
(** [chain h ps e]: the items [ps] are linked one after the other, the last one points to [e]. *)
Fixpoint chain h ps (e : N) : Prop :=
  match ps with
  | [] => True
  | (a, v) :: ps => a <> 0%N /\ (exists p, h_items h !! a = Some (Item v (start_of ps e) p)) /\ chain h ps e
  end.
Notation addrs ps := (map fst ps).
Notation vals ps := (map snd ps).

Lemma start_app p1 p2 e : start_of (p1 ++ p2) e = start_of p1 (start_of p2 e).
Proof. destruct p1 as [|[a v] p1]; reflexivity. Qed.
Lemma chain_app h p1 p2 e : chain h (p1 ++ p2) e <-> chain h p1 (start_of p2 e) /\ chain h p2 e.
Proof.
  induction p1 as [|[a v] p1 IH]; cbn [app chain]; [tauto|]. rewrite start_app, IH. tauto.
Qed.
Lemma chain_frame h h' ps e : (forall a, a ∈ addrs ps -> h_items h' !! a = h_items h !! a) -> chain h ps e -> chain h' ps e.
Proof.
  induction ps as [|[a v] ps IH]; intros F H; cbn [chain map fst] in *; [exact I|].
  destruct H as (N0 & [p Hp] & H). split; [exact N0|]. split; [exists p; rewrite F by left; exact Hp|].
  apply IH; [|exact H]. intros b Hb. apply F. right. exact Hb.
Qed.
Lemma get_in h ps e a v r : chain h (ps ++ (a, v) :: r) e -> exists i, get h a = Ok i /\ i_val i = v /\ i_next i = start_of r e.
Proof.
  intros H. apply chain_app in H as [_ H]. cbn [chain] in H. destruct H as (N0 & [p Hp] & _).
  exists (Item v (start_of r e) p). unfold get. rewrite Hp. unfold null. apply N.eqb_neq in N0. rewrite N0. auto.
Qed.
Lemma get_head h a v r e : chain h ((a, v) :: r) e -> exists i, get h a = Ok i /\ i_val i = v /\ i_next i = start_of r e.
Proof. apply (get_in h []). Qed.
Lemma walk_chain h p1 p2 e : chain h (p1 ++ p2) e -> walk h (start_of (p1 ++ p2) e) (length p1) = Ok (start_of p2 e).
Proof.
  induction p1 as [|[a v] p1 IH]; intros H; [reflexivity|]. cbn [app start_of length walk].
  destruct (get_head _ _ _ _ _ H) as (i & Hg & _ & Hn). unfold next_of. rewrite Hg. cbn [rbind]. rewrite Hn.
  apply IH. cbn [app chain] in H. tauto.
Qed.
Lemma walk_take h ps e n : chain h ps e -> (n <= length ps)%nat -> walk h (start_of ps e) n = Ok (start_of (drop n ps) e).
Proof.
  intros H L. rewrite <- (take_drop n ps) in H |- * at 1. pose proof (walk_chain _ _ _ _ H) as W.
  rewrite take_length_le in W by exact L. exact W.
Qed.

(** Updates. *)
Lemma set_next_in h a v p n b : a <> 0%N -> h_items h !! a = Some (Item v n p) ->
  set_next h a b = Ok (Heap (<[a := Item v b p]> (h_items h)) (h_free h)).
Proof. intros N0 H. unfold set_next, get. rewrite H. unfold null. apply N.eqb_neq in N0. rewrite N0. reflexivity. Qed.
Lemma set_prev_in h a v p n b : a <> 0%N -> h_items h !! a = Some (Item v n p) ->
  set_prev h a b = Ok (Heap (<[a := Item v n b]> (h_items h)) (h_free h)).
Proof. intros N0 H. unfold set_prev, get. rewrite H. unfold null. apply N.eqb_neq in N0. rewrite N0. reflexivity. Qed.
(** What an update of the item [a] leaves alone. *)
Definition same_but h h' (a : N) : Prop := (forall b, b <> a -> h_items h' !! b = h_items h !! b) /\ h_free h' = h_free h.
Lemma link h p1 a v e b : chain h (p1 ++ [(a, v)]) e -> a ∉ addrs p1 ->
  exists h', set_next h a b = Ok h' /\ same_but h h' a /\ chain h' (p1 ++ [(a, v)]) b.
Proof.
  intros H Ha. apply chain_app in H as [H1 H2]. cbn [chain start_of] in H2. destruct H2 as (N0 & [p Hp] & _).
  eexists. split; [apply (set_next_in _ _ _ _ _ _ N0 Hp)|]. split.
  - split; [|reflexivity]. intros c Hc. cbn [h_items]. rewrite lookup_insert_ne by congruence. reflexivity.
  - apply chain_app. split.
    + eapply chain_frame; [|exact H1]. intros c Hc. cbn [h_items]. rewrite lookup_insert_ne; [reflexivity|]. intros ->. contradiction.
    + cbn [chain start_of h_items]. split; [exact N0|]. split; [|exact I]. exists p. apply lookup_insert.
Qed.
Lemma set_prev_chain h h' a b : set_prev h a b = Ok h' -> (forall ps e, chain h ps e -> chain h' ps e) /\ same_but h h' a.
Proof.
  unfold set_prev, get. destruct (h_items h !! a) as [i|] eqn:E; cbn [rbind]; [|discriminate].
  destruct (null a) eqn:N0; cbn [rbind]; [discriminate|]. intros [= <-]. split.
  - induction ps as [|[c v] ps IH]; intros e H; cbn [chain] in *; [exact I|]. destruct H as (Nc & [p Hp] & H).
    split; [exact Nc|]. split; [|apply IH; exact H]. cbn [h_items]. destruct (decide (c = a)) as [->|Hc].
    + rewrite E in Hp. injection Hp as ->. exists b. rewrite lookup_insert. reflexivity.
    + exists p. rewrite lookup_insert_ne by congruence. exact Hp.
  - split; [|reflexivity]. intros c Hc. cbn [h_items]. rewrite lookup_insert_ne by congruence. reflexivity.
Qed.
Lemma set_prev_ok h ps e a v r b : chain h (ps ++ (a, v) :: r) e -> exists h', set_prev h a b = Ok h'.
Proof.
  intros H. destruct (get_in _ _ _ _ _ _ H) as (i & Hg & _). unfold set_prev. rewrite Hg. cbn [rbind]. eauto.
Qed.
End Chains.
Notation addrs ps := (map fst ps).
Notation vals ps := (map snd ps).
