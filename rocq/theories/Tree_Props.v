(** C79: behaviour trees. *)
From Verif Require Import Base Tree_Model Tree_Spec Tree_Proofs.
Open Scope nat_scope.
Open Scope list_scope.

(** Leaves for the examples: the world is the list of answers still to come. *)
Definition script (id : nat) (w : list status) : res (status * list status) :=
  match w with s :: w' => Ok (s, w') | [] => Throw "no more answers" end.

(** A sequence that is ticked until it is done lets its children settle one after the other, each of them once and from where
    it is, up to the first that fails; and it is done exactly if they are. Then it is ready to start anew. *)
Theorem C79_sequence : forall W (act : nat -> W -> res (status * W)) cs w s n' w',
  settles (tick act) (Sequence 0 cs) w s n' w' <->
  exists cs', n' = Sequence 0 cs' /\ in_turn (tick act) Success cs w s cs' w'.
Proof.
  intros W act cs w s n' w'. split.
  - intros H. exact (sequence_turn act _ _ _ _ _ H [] cs eq_refl).
  - intros (cs' & -> & H). exact (sequence_settles act _ _ _ _ _ H []).
Qed.
Print Assumptions C79_sequence.
(** Three ticks: the first child is not ticked again when the second goes on. *)
Example C79_sequence_ex :
  settles (tick script) (Sequence 0 [Leaf 1; Leaf 2; Leaf 3]) [Success; Running; Waiting; Success; Failure; Success]
    Failure (Sequence 0 [Leaf 1; Leaf 2; Leaf 3]) [Success].
Proof.
  eapply settles_later; [vm_compute; reflexivity|intros [|]; discriminate|].
  eapply settles_later; [vm_compute; reflexivity|intros [|]; discriminate|].
  eapply settles_now; [vm_compute; reflexivity|right; reflexivity].
Qed.

(** A fallback does the same up to the first that succeeds. *)
Theorem C79_fallback : forall W (act : nat -> W -> res (status * W)) cs w s n' w',
  settles (tick act) (Fallback 0 cs) w s n' w' <->
  exists cs', n' = Fallback 0 cs' /\ in_turn (tick act) Failure cs w s cs' w'.
Proof.
  intros W act cs w s n' w'. split.
  - intros H. exact (fallback_turn act _ _ _ _ _ H [] cs eq_refl).
  - intros (cs' & -> & H). exact (fallback_settles act _ _ _ _ _ H []).
Qed.
Print Assumptions C79_fallback.
Example C79_fallback_ex :
  settles (tick script) (Fallback 0 [Leaf 1; Leaf 2; Leaf 3]) [Failure; Running; Success; Success]
    Success (Fallback 0 [Leaf 1; Leaf 2; Leaf 3]) [Success].
Proof.
  eapply settles_later; [vm_compute; reflexivity|intros [|]; discriminate|].
  eapply settles_now; [vm_compute; reflexivity|left; reflexivity].
Qed.

(** As long as they are not done, sequences and fallbacks answer as the child they have come to. *)
Theorem C79_unfinished : forall W (act : nat -> W -> res (status * W)) ix cs w s n' w', ~ final s ->
  (tick act (Sequence ix cs) w = Ok (s, n', w') -> exists i cs' c w0 c', n' = Sequence i cs' /\
     nth_error cs i = Some c /\ nth_error cs' i = Some c' /\ tick act c w0 = Ok (s, c', w')) /\
  (tick act (Fallback ix cs) w = Ok (s, n', w') -> exists i cs' c w0 c', n' = Fallback i cs' /\
     nth_error cs i = Some c /\ nth_error cs' i = Some c' /\ tick act c w0 = Ok (s, c', w')).
Proof.
  intros W act ix cs w s n' w' Hs. split; intros H; cbn [tick] in H.
  - destruct (sequence_loop (tick act) ix 0 cs w) as [[[[s1 i] r] w1]| | |] eqn:E; cbn in H; try discriminate.
    injection H as <- <- <-. destruct (sequence_unfinished _ _ _ _ _ _ _ _ _ E Hs) as (k & c & w0 & c' & -> & H1 & H2 & H3).
    exists k, r, c, w0, c'. auto.
  - destruct (fallback_loop (tick act) ix 0 cs w) as [[[[s1 i] r] w1]| | |] eqn:E; cbn in H; try discriminate.
    injection H as <- <- <-. destruct (fallback_unfinished _ _ _ _ _ _ _ _ _ E Hs) as (k & c & w0 & c' & -> & H1 & H2 & H3).
    exists k, r, c, w0, c'. auto.
Qed.
Print Assumptions C79_unfinished.
Example C79_unfinished_ex :
  tick script (Sequence 0 [Leaf 1; Leaf 2; Leaf 3]) [Success; Waiting; Failure] =
    Ok (Waiting, Sequence 1 [Leaf 1; Leaf 2; Leaf 3], [Failure]) /\
  tick script (Fallback 1 [Leaf 1; Leaf 2; Leaf 3]) [Failure; Running] =
    Ok (Running, Fallback 2 [Leaf 1; Leaf 2; Leaf 3], []).
Proof. split; vm_compute; reflexivity. Qed.

(** A tick of a reactive node ticks its children from the first one, once each, up to the first that does not let it go on,
    and answers as that one. *)
Theorem C79_reactive_sequence : forall W (act : nat -> W -> res (status * W)) cs w s n' w',
  tick act (ReactiveSequence cs) w = Ok (s, n', w') <->
  exists cs', n' = ReactiveSequence cs' /\ once_each (tick act) Success cs w s cs' w'.
Proof.
  intros W act cs w s n' w'. cbn [tick]. split.
  - destruct (reactive_sequence_loop (tick act) cs w) as [[[s1 r] w1]| | |] eqn:E; cbn; try discriminate.
    intros [= <- <- <-]. exists r. split; [reflexivity|]. now apply reactive_sequence_once.
  - intros (cs' & -> & H). apply reactive_sequence_once in H. rewrite H. reflexivity.
Qed.
Print Assumptions C79_reactive_sequence.
Theorem C79_reactive_fallback : forall W (act : nat -> W -> res (status * W)) cs w s n' w',
  tick act (ReactiveFallback cs) w = Ok (s, n', w') <->
  exists cs', n' = ReactiveFallback cs' /\ once_each (tick act) Failure cs w s cs' w'.
Proof.
  intros W act cs w s n' w'. cbn [tick]. split.
  - destruct (reactive_fallback_loop (tick act) cs w) as [[[s1 r] w1]| | |] eqn:E; cbn; try discriminate.
    intros [= <- <- <-]. exists r. split; [reflexivity|]. now apply reactive_fallback_once.
  - intros (cs' & -> & H). apply reactive_fallback_once in H. rewrite H. reflexivity.
Qed.
Print Assumptions C79_reactive_fallback.
Example C79_reactive_ex :
  tick script (ReactiveSequence [Leaf 1; Leaf 2; Leaf 3]) [Success; Running; Failure] =
    Ok (Running, ReactiveSequence [Leaf 1; Leaf 2; Leaf 3], [Failure]) /\
  tick script (ReactiveFallback [Leaf 1; Leaf 2; Leaf 3]) [Failure; Waiting; Success] =
    Ok (Waiting, ReactiveFallback [Leaf 1; Leaf 2; Leaf 3], [Success]).
Proof. split; vm_compute; reflexivity. Qed.

(** An inverter is done when its child is, with the opposite answer. *)
Theorem C79_inverter : forall W (act : nat -> W -> res (status * W)) st c w s n' w',
  settles (tick act) (Inverter st c) w s n' w' <->
  exists c' s', settles (tick act) c w s' c' w' /\ n' = Inverter s' c' /\
    ((s' = Success /\ s = Failure) \/ (s' = Failure /\ s = Success)).
Proof.
  intros W act st c w s n' w'. split.
  - intros H. remember (Inverter st c) as n eqn:En. revert st c En.
    induction H as [n w s n' w' E Hs|n w s n1 w1 s' n' w' E Hs _ IH]; intros st c ->; cbn [tick] in E;
      destruct (tick act c w) as [[[a c1] w2]| | |] eqn:E2; cbn in E; try discriminate; destruct a; injection E as <- <- <-.
    + exists c1, Success. split; [constructor; [exact E2|left; reflexivity]|auto].
    + destruct Hs; discriminate.
    + destruct Hs; discriminate.
    + exists c1, Failure. split; [constructor; [exact E2|right; reflexivity]|auto].
    + exfalso. apply Hs. right. reflexivity.
    + destruct (IH _ _ eq_refl) as (c' & t & Ht & R). exists c', t. split; [|exact R]. eapply settles_later; eassumption.
    + destruct (IH _ _ eq_refl) as (c' & t & Ht & R). exists c', t. split; [|exact R]. eapply settles_later; eassumption.
    + exfalso. apply Hs. left. reflexivity.
  - intros (c' & s' & H & -> & R). revert st.
    induction H as [c w s' c' w' E Hs|c w t c1 w1 s' c' w' E Hs _ IH]; intros st.
    + destruct R as [[-> ->]|[-> ->]]; apply settles_now;
        try (cbn [tick]; rewrite E; reflexivity); [right|left]; reflexivity.
    + destruct t; try (exfalso; apply Hs; unfold final; auto; fail).
      * eapply settles_later; [cbn [tick]; rewrite E; reflexivity|exact Hs|exact (IH R _)].
      * eapply settles_later; [cbn [tick]; rewrite E; reflexivity|exact Hs|exact (IH R _)].
Qed.
Print Assumptions C79_inverter.
Example C79_inverter_ex :
  settles (tick script) (Inverter Success (Leaf 1)) [Running; Failure] Success (Inverter Failure (Leaf 1)) [].
Proof.
  eapply settles_later; [vm_compute; reflexivity|intros [|]; discriminate|].
  eapply settles_now; [vm_compute; reflexivity|left; reflexivity].
Qed.

(** If the leaves answer yes or no and change nothing, a tree of sequences, fallbacks and inverters is the formula with and, or
    and not, at this tick and at every later one. *)
Theorem C79_formula : forall W (act : nat -> W -> res (status * W)) v n w,
  (forall id w, act id w = Ok (if v id : bool then Success else Failure, w)) -> logical n ->
  exists n', tick act n w = Ok (if holds v n then Success else Failure, n', w) /\ logical n' /\
    forall u, holds u n' = holds u n.
Proof. intros W act v n w Hact Hn. exact (logical_good act v Hact n Hn w). Qed.
Print Assumptions C79_formula.
Example C79_formula_ex :
  let n := Sequence 0 [Leaf 0; Fallback 0 [Leaf 1; Inverter Running (Leaf 2)]; ReactiveSequence []] in
  logical n /\ holds Nat.even n = false /\ holds (fun _ => true) n = true /\
  tick (fun id w => Ok (if Nat.even id then Success else Failure, w)) n tt =
    Ok (Failure, Sequence 0 [Leaf 0; Fallback 0 [Leaf 1; Inverter Success (Leaf 2)]; ReactiveSequence []], tt).
Proof. cbn zeta. split; [repeat constructor|]. repeat split. Qed.

(** The decorators that force an answer never run their child. *)
Theorem C79_forced_child_refuted :
  (forall W (act : nat -> W -> res (status * W)) st c w,
     (exists s, tick act (ForceFailure st c) w = Ok (s, ForceFailure st c, w)) /\
     (exists s, tick act (ForceSuccess st c) w = Ok (s, ForceSuccess st c, w))) /\
  ~ (forall W (act : nat -> W -> res (status * W)) st c w s c' w' t n' w'',
       tick act c w = Ok (s, c', w') -> tick act (ForceSuccess st c) w = Ok (t, n', w'') -> w'' = w').
Proof.
  split.
  - intros W act st c w. split; destruct st; cbn; eauto.
  - intros H. specialize (H _ script Success (Leaf 1) [Failure] Failure (Leaf 1) [] Success (ForceSuccess Success (Leaf 1))
      [Failure] eq_refl eq_refl). discriminate.
Qed.
Print Assumptions C79_forced_child_refuted.

(** SequenceStar fails with every tick, even without children. *)
Theorem C79_star_refuted :
  ~ (forall W (act : nat -> W -> res (status * W)) w, exists s n' w', tick act (SequenceStar []) w = Ok (s, n', w')) /\
  forall W (act : nat -> W -> res (status * W)) cs w, tick act (SequenceStar cs) w = Throw "NullPointerException".
Proof.
  split; [|reflexivity]. intros H. destruct (H _ script []) as (s & n' & w' & E). discriminate.
Qed.
Print Assumptions C79_star_refuted.

(** A child that was interrupted goes on where it was: after the condition has failed in between, the first step of the inner
    sequence is not done again. *)
Theorem C79_interrupted_refuted :
  ~ (forall W (act : nat -> W -> res (status * W)) cs w n' w',
       tick act (ReactiveSequence cs) w = Ok (Failure, n', w') -> forall ix cs', n' <> ReactiveSequence [Leaf 1; Sequence (S ix) cs']).
Proof.
  intros H. refine (H _ script [Leaf 1; Sequence 1 [Leaf 2; Leaf 3]] [Failure] _ _ _ 0 [Leaf 2; Leaf 3] eq_refl).
  vm_compute. reflexivity.
Qed.
Print Assumptions C79_interrupted_refuted.
Example C79_interrupted_ex :
  let n := ReactiveSequence [Leaf 1; Sequence 0 [Leaf 2; Leaf 3]] in
  let at3 := ReactiveSequence [Leaf 1; Sequence 1 [Leaf 2; Leaf 3]] in
  tick script n [Success; Success; Running] = Ok (Running, at3, []) /\
  tick script at3 [Failure] = Ok (Failure, at3, []) /\
  tick script at3 [Success; Success] = Ok (Success, n, []).
Proof. repeat split. Qed.
