(** Proofs about the nodes of behaviour trees. *)
From Verif Require Import Base Tree_Model Tree_Spec.
From Coq Require Import Arith Lia.
Open Scope nat_scope.
Open Scope list_scope.

Local Arguments Nat.ltb : simpl never.

Section Proofs.
Context {W : Type}.
Implicit Types w : W.

(** One pass of a loop with a position: what is passed over, what answers [go_on], and how it ends. *)
Inductive pass (tk : node -> W -> res (status * node * W)) (go_on : status) :
    nat -> list node -> W -> status -> nat -> list node -> W -> Prop :=
  | pass_end pos w : pass tk go_on pos [] w go_on 0 [] w
  | pass_next pos c w c' w1 cs s i cs' w' :
      tk c w = Ok (go_on, c', w1) -> pass tk go_on (S pos) cs w1 s i cs' w' ->
      pass tk go_on pos (c :: cs) w s i (c' :: cs') w'
  | pass_stop pos c w s c' w1 cs :
      tk c w = Ok (s, c', w1) -> s <> go_on ->
      pass tk go_on pos (c :: cs) w s (match s with Running | Waiting => pos | _ => 0 end) (c' :: cs) w1.

Lemma sequence_pass tk ix cs : forall pos w s i cs' w', ix <= pos ->
  sequence_loop tk ix pos cs w = Ok (s, i, cs', w') -> pass tk Success pos cs w s i cs' w'.
Proof.
  induction cs as [|c cs IH]; intros pos w s i cs' w' Hle H; cbn in H.
  - injection H as <- <- <- <-. constructor.
  - rewrite (proj2 (Nat.ltb_ge pos ix) Hle) in H.
    destruct (tk c w) as [[[a c'] w1]| | |] eqn:E; cbn in H; try discriminate.
    destruct a.
    + destruct (sequence_loop tk ix (S pos) cs w1) as [[[[s1 i1] r1] w2]| | |] eqn:E2; cbn in H; try discriminate.
      injection H as <- <- <- <-. eapply pass_next; [exact E|]. apply IH; [lia|exact E2].
    + injection H as <- <- <- <-. eapply (pass_stop tk Success pos c w Running); [exact E|discriminate].
    + injection H as <- <- <- <-. eapply (pass_stop tk Success pos c w Waiting); [exact E|discriminate].
    + injection H as <- <- <- <-. eapply (pass_stop tk Success pos c w Failure); [exact E|discriminate].
Qed.
Lemma fallback_pass tk ix cs : forall pos w s i cs' w', ix <= pos ->
  fallback_loop tk ix pos cs w = Ok (s, i, cs', w') -> pass tk Failure pos cs w s i cs' w'.
Proof.
  induction cs as [|c cs IH]; intros pos w s i cs' w' Hle H; cbn in H.
  - injection H as <- <- <- <-. constructor.
  - rewrite (proj2 (Nat.ltb_ge pos ix) Hle) in H.
    destruct (tk c w) as [[[a c'] w1]| | |] eqn:E; cbn in H; try discriminate.
    destruct a.
    + injection H as <- <- <- <-. eapply (pass_stop tk Failure pos c w Success); [exact E|discriminate].
    + injection H as <- <- <- <-. eapply (pass_stop tk Failure pos c w Running); [exact E|discriminate].
    + injection H as <- <- <- <-. eapply (pass_stop tk Failure pos c w Waiting); [exact E|discriminate].
    + destruct (fallback_loop tk ix (S pos) cs w1) as [[[[s1 i1] r1] w2]| | |] eqn:E2; cbn in H; try discriminate.
      injection H as <- <- <- <-. eapply pass_next; [exact E|]. apply IH; [lia|exact E2].
Qed.
(** The children before the position are kept. *)
Lemma sequence_skip tk b : forall ix pos cs w s i cs' w', pos + length b = ix ->
  sequence_loop tk ix pos (b ++ cs) w = Ok (s, i, cs', w') ->
  exists r, cs' = b ++ r /\ pass tk Success ix cs w s i r w'.
Proof.
  induction b as [|x b IH]; intros ix pos cs w s i cs' w' Hl H.
  - cbn in Hl. exists cs'. split; [reflexivity|]. replace pos with ix in H by lia. eapply sequence_pass; [|exact H]. lia.
  - cbn in H, Hl. rewrite (proj2 (Nat.ltb_lt pos ix)) in H by lia.
    destruct (sequence_loop tk ix (S pos) (b ++ cs) w) as [[[[s1 i1] r1] w2]| | |] eqn:E2; cbn in H; try discriminate.
    injection H as <- <- <- <-. destruct (IH ix (S pos) cs w s1 i1 r1 w2) as (r & -> & Hp); [lia|exact E2|].
    exists r. split; [reflexivity|exact Hp].
Qed.
Lemma fallback_skip tk b : forall ix pos cs w s i cs' w', pos + length b = ix ->
  fallback_loop tk ix pos (b ++ cs) w = Ok (s, i, cs', w') ->
  exists r, cs' = b ++ r /\ pass tk Failure ix cs w s i r w'.
Proof.
  induction b as [|x b IH]; intros ix pos cs w s i cs' w' Hl H.
  - cbn in Hl. exists cs'. split; [reflexivity|]. replace pos with ix in H by lia. eapply fallback_pass; [|exact H]. lia.
  - cbn in H, Hl. rewrite (proj2 (Nat.ltb_lt pos ix)) in H by lia.
    destruct (fallback_loop tk ix (S pos) (b ++ cs) w) as [[[[s1 i1] r1] w2]| | |] eqn:E2; cbn in H; try discriminate.
    injection H as <- <- <- <-. destruct (IH ix (S pos) cs w s1 i1 r1 w2) as (r & -> & Hp); [lia|exact E2|].
    exists r. split; [reflexivity|exact Hp].
Qed.

Lemma final_dec s : final s \/ ~ final s.
Proof. destruct s; unfold final; [left; auto|right; intros [|]; discriminate|right; intros [|]; discriminate|left; auto]. Qed.

(** A pass that ends for good is a turn of the children. *)
Lemma pass_final tk g pos cs w s i cs' w' : final g ->
  pass tk g pos cs w s i cs' w' -> final s -> i = 0 /\ in_turn tk g cs w s cs' w'.
Proof.
  intros Hg. induction 1 as [|pos c w c' w1 cs s i cs' w' E _ IH|pos c w s c' w1 cs E Hn]; intros Hs.
  - split; [reflexivity|constructor].
  - destruct (IH Hs) as [-> Ht]. split; [reflexivity|]. eapply turn_next; [|exact Ht]. now constructor.
  - split; [destruct Hs; subst; reflexivity|]. apply turn_stop; [now constructor|exact Hn].
Qed.
(** A pass that does not leaves the position at a child that goes on. *)
Lemma pass_open tk g pos cs w s i cs' w' : final g ->
  pass tk g pos cs w s i cs' w' -> ~ final s ->
  exists d c' r, cs' = d ++ c' :: r /\ i = pos + length d /\
    forall t cs'' w'', in_turn tk g (c' :: r) w' t cs'' w'' -> in_turn tk g cs w t (d ++ cs'') w''.
Proof.
  intros Hg. induction 1 as [|pos c w c' w1 cs s i cs' w' E _ IH|pos c w s c' w1 cs E Hn]; intros Hs.
  - contradiction.
  - destruct (IH Hs) as (d & c2 & r & -> & -> & Ht). exists (c' :: d), c2, r. cbn. repeat split; [lia|].
    intros t cs'' w'' H. eapply turn_next; [apply settles_now; [exact E|exact Hg]|]. now apply Ht.
  - exists [], c', cs. cbn. repeat split.
    + destruct s; unfold final in Hs; try lia; exfalso; apply Hs; auto.
    + intros t cs'' w'' H. inversion H; subst.
      * eapply turn_next; [|eassumption]. eapply settles_later; eassumption.
      * apply turn_stop; [|assumption]. eapply settles_later; eassumption.
Qed.

Context (act : nat -> W -> res (status * W)).

Lemma sequence_turn n w s n' w' : settles (tick act) n w s n' w' ->
  forall b cs, n = Sequence (length b) (b ++ cs) ->
  exists cs', n' = Sequence 0 (b ++ cs') /\ in_turn (tick act) Success cs w s cs' w'.
Proof.
  induction 1 as [n w s n' w' E Hs|n w s n1 w1 s' n' w' E Hs _ IH]; intros b cs ->; cbn [tick] in E.
  - destruct (sequence_loop (tick act) (length b) 0 (b ++ cs) w) as [[[[s1 i1] r1] w2]| | |] eqn:E2; cbn in E; try discriminate.
    injection E as <- <- <-. destruct (sequence_skip _ b _ 0 _ _ _ _ _ _ eq_refl E2) as (r & -> & Hp).
    destruct (pass_final _ _ _ _ _ _ _ _ _ (or_introl eq_refl) Hp Hs) as [-> Ht]. eauto.
  - destruct (sequence_loop (tick act) (length b) 0 (b ++ cs) w) as [[[[s1 i1] r1] w2]| | |] eqn:E2; cbn in E; try discriminate.
    injection E as <- <- <-. destruct (sequence_skip _ b _ 0 _ _ _ _ _ _ eq_refl E2) as (r & -> & Hp).
    destruct (pass_open _ _ _ _ _ _ _ _ _ (or_introl eq_refl) Hp Hs) as (d & c' & r' & -> & -> & Ht).
    destruct (IH (b ++ d) (c' :: r')) as (cs'' & -> & H).
    { rewrite app_length, <- app_assoc. reflexivity. }
    exists (d ++ cs''). rewrite app_assoc. split; [reflexivity|]. now apply Ht.
Qed.
Lemma fallback_turn n w s n' w' : settles (tick act) n w s n' w' ->
  forall b cs, n = Fallback (length b) (b ++ cs) ->
  exists cs', n' = Fallback 0 (b ++ cs') /\ in_turn (tick act) Failure cs w s cs' w'.
Proof.
  induction 1 as [n w s n' w' E Hs|n w s n1 w1 s' n' w' E Hs _ IH]; intros b cs ->; cbn [tick] in E.
  - destruct (fallback_loop (tick act) (length b) 0 (b ++ cs) w) as [[[[s1 i1] r1] w2]| | |] eqn:E2; cbn in E; try discriminate.
    injection E as <- <- <-. destruct (fallback_skip _ b _ 0 _ _ _ _ _ _ eq_refl E2) as (r & -> & Hp).
    destruct (pass_final _ _ _ _ _ _ _ _ _ (or_intror eq_refl) Hp Hs) as [-> Ht]. eauto.
  - destruct (fallback_loop (tick act) (length b) 0 (b ++ cs) w) as [[[[s1 i1] r1] w2]| | |] eqn:E2; cbn in E; try discriminate.
    injection E as <- <- <-. destruct (fallback_skip _ b _ 0 _ _ _ _ _ _ eq_refl E2) as (r & -> & Hp).
    destruct (pass_open _ _ _ _ _ _ _ _ _ (or_intror eq_refl) Hp Hs) as (d & c' & r' & -> & -> & Ht).
    destruct (IH (b ++ d) (c' :: r')) as (cs'' & -> & H).
    { rewrite app_length, <- app_assoc. reflexivity. }
    exists (d ++ cs''). rewrite app_assoc. split; [reflexivity|]. now apply Ht.
Qed.

(** The other direction for Sequence: what is passed over does not matter. *)
Lemma sequence_ix (tk : node -> W -> res (status * node * W)) cs : forall ix ix' pos w, ix <= pos -> ix' <= pos ->
  sequence_loop tk ix pos cs w = sequence_loop tk ix' pos cs w.
Proof.
  induction cs as [|c cs IH]; intros ix ix' pos w H H'; cbn; [reflexivity|].
  rewrite (proj2 (Nat.ltb_ge pos ix) H), (proj2 (Nat.ltb_ge pos ix') H').
  destruct (tk c w) as [[[a c'] w1]| | |]; cbn; try reflexivity. destruct a; try reflexivity.
  rewrite (IH ix ix' (S pos) w1) by lia. reflexivity.
Qed.
Lemma sequence_over (tk : node -> W -> res (status * node * W)) b : forall pos cs w,
  sequence_loop tk (pos + length b) pos (b ++ cs) w =
  rbind (sequence_loop tk (pos + length b) (pos + length b) cs w)
    (fun r => match r with (s, i, rest, w') => Ok (s, i, b ++ rest, w') end).
Proof.
  induction b as [|x b IH]; intros pos cs w; cbn [length app].
  - rewrite Nat.add_0_r. destruct (sequence_loop tk pos pos cs w) as [[[[s i] r] w']| | |]; reflexivity.
  - cbn [sequence_loop]. rewrite (proj2 (Nat.ltb_lt pos (pos + S (length b)))) by lia.
    change (fix go (pos0 : nat) (cs0 : list node) (w0 : W) {struct cs0} := _) with (sequence_loop tk (pos + S (length b))).
    replace (pos + S (length b)) with (S pos + length b) by lia.
    rewrite IH. destruct (sequence_loop tk (S pos + length b) (S pos + length b) cs w) as [[[[s i] r] w']| | |]; reflexivity.
Qed.
Lemma sequence_tick b cs w : tick act (Sequence (length b) (b ++ cs)) w =
  rbind (sequence_loop (tick act) 0 (length b) cs w)
    (fun r => match r with (s, i, rest, w') => Ok (s, Sequence i (b ++ rest), w') end).
Proof.
  cbn [tick]. pose proof (sequence_over (tick act) b 0 cs w) as E. cbn [Nat.add] in E. rewrite E.
  rewrite (sequence_ix _ cs (length b) 0 (length b) w) by lia.
  destruct (sequence_loop (tick act) 0 (length b) cs w) as [[[[s i] r] w']| | |]; reflexivity.
Qed.
Lemma sequence_settles cs w s cs' w' : in_turn (tick act) Success cs w s cs' w' ->
  forall b, settles (tick act) (Sequence (length b) (b ++ cs)) w s (Sequence 0 (b ++ cs')) w'.
Proof.
  induction 1 as [w|c w c' w1 cs s cs' w' Hc _ IH|c w s c' w1 cs Hc Hn]; intros b.
  - apply settles_now; [|left; reflexivity]. rewrite sequence_tick. reflexivity.
  - specialize (IH (b ++ [c'])). rewrite app_length in IH. cbn [length] in IH. rewrite <- !app_assoc in IH. cbn [app] in IH.
    remember Success as g eqn:Eg. induction Hc as [c w g c' w1 E Hf|c w t c1 w2 g c' w1 E Hf _ IH2]; subst.
    + assert (Hstep : tick act (Sequence (length b) (b ++ c :: cs)) w = tick act (Sequence (length b + 1) (b ++ c' :: cs)) w1).
      { rewrite sequence_tick. replace (length b + 1) with (length (b ++ [c'])) by (rewrite app_length; reflexivity).
        replace (b ++ c' :: cs) with ((b ++ [c']) ++ cs) by (rewrite <- app_assoc; reflexivity).
        rewrite sequence_tick. cbn [sequence_loop]. rewrite (proj2 (Nat.ltb_ge (length b) 0)) by lia.
        change (fix go (pos0 : nat) (cs0 : list node) (w0 : W) {struct cs0} := _) with (sequence_loop (tick act) 0).
        rewrite E. cbn [rbind]. rewrite app_length. cbn [length]. rewrite Nat.add_1_r.
        destruct (sequence_loop (tick act) 0 (S (length b)) cs w1) as [[[[s1 i] r] w2]| | |]; cbn; try reflexivity.
        now rewrite <- app_assoc. }
      inversion IH; subst.
      * apply settles_now; [rewrite Hstep|]; assumption.
      * eapply settles_later; [rewrite Hstep; eassumption|eassumption|eassumption].
    + eapply settles_later; [|exact Hf|exact (IH2 eq_refl IH)].
      rewrite sequence_tick. cbn [sequence_loop]. rewrite (proj2 (Nat.ltb_ge (length b) 0)) by lia. rewrite E.
      destruct t; try reflexivity; exfalso; apply Hf; unfold final; auto.
  - induction Hc as [c w s c' w1 E Hf|c w t c1 w2 s c' w1 E Hf _ IH2].
    + apply settles_now; [|exact Hf]. rewrite sequence_tick. cbn [sequence_loop].
      rewrite (proj2 (Nat.ltb_ge (length b) 0)) by lia. rewrite E. destruct Hf; subst; [congruence|reflexivity].
    + eapply settles_later; [|exact Hf|exact (IH2 Hn)].
      rewrite sequence_tick. cbn [sequence_loop]. rewrite (proj2 (Nat.ltb_ge (length b) 0)) by lia. rewrite E.
      destruct t; try reflexivity; exfalso; apply Hf; unfold final; auto.
Qed.

(** The other direction for Fallback: what is passed over does not matter. *)
Lemma fallback_ix (tk : node -> W -> res (status * node * W)) cs : forall ix ix' pos w, ix <= pos -> ix' <= pos ->
  fallback_loop tk ix pos cs w = fallback_loop tk ix' pos cs w.
Proof.
  induction cs as [|c cs IH]; intros ix ix' pos w H H'; cbn; [reflexivity|].
  rewrite (proj2 (Nat.ltb_ge pos ix) H), (proj2 (Nat.ltb_ge pos ix') H').
  destruct (tk c w) as [[[a c'] w1]| | |]; cbn; try reflexivity. destruct a; try reflexivity.
  rewrite (IH ix ix' (S pos) w1) by lia. reflexivity.
Qed.
Lemma fallback_over (tk : node -> W -> res (status * node * W)) b : forall pos cs w,
  fallback_loop tk (pos + length b) pos (b ++ cs) w =
  rbind (fallback_loop tk (pos + length b) (pos + length b) cs w)
    (fun r => match r with (s, i, rest, w') => Ok (s, i, b ++ rest, w') end).
Proof.
  induction b as [|x b IH]; intros pos cs w; cbn [length app].
  - rewrite Nat.add_0_r. destruct (fallback_loop tk pos pos cs w) as [[[[s i] r] w']| | |]; reflexivity.
  - cbn [fallback_loop]. rewrite (proj2 (Nat.ltb_lt pos (pos + S (length b)))) by lia.
    change (fix go (pos0 : nat) (cs0 : list node) (w0 : W) {struct cs0} := _) with (fallback_loop tk (pos + S (length b))).
    replace (pos + S (length b)) with (S pos + length b) by lia.
    rewrite IH. destruct (fallback_loop tk (S pos + length b) (S pos + length b) cs w) as [[[[s i] r] w']| | |]; reflexivity.
Qed.
Lemma fallback_tick b cs w : tick act (Fallback (length b) (b ++ cs)) w =
  rbind (fallback_loop (tick act) 0 (length b) cs w)
    (fun r => match r with (s, i, rest, w') => Ok (s, Fallback i (b ++ rest), w') end).
Proof.
  cbn [tick]. pose proof (fallback_over (tick act) b 0 cs w) as E. cbn [Nat.add] in E. rewrite E.
  rewrite (fallback_ix _ cs (length b) 0 (length b) w) by lia.
  destruct (fallback_loop (tick act) 0 (length b) cs w) as [[[[s i] r] w']| | |]; reflexivity.
Qed.
Lemma fallback_settles cs w s cs' w' : in_turn (tick act) Failure cs w s cs' w' ->
  forall b, settles (tick act) (Fallback (length b) (b ++ cs)) w s (Fallback 0 (b ++ cs')) w'.
Proof.
  induction 1 as [w|c w c' w1 cs s cs' w' Hc _ IH|c w s c' w1 cs Hc Hn]; intros b.
  - apply settles_now; [|right; reflexivity]. rewrite fallback_tick. reflexivity.
  - specialize (IH (b ++ [c'])). rewrite app_length in IH. cbn [length] in IH. rewrite <- !app_assoc in IH. cbn [app] in IH.
    remember Failure as g eqn:Eg. induction Hc as [c w g c' w1 E Hf|c w t c1 w2 g c' w1 E Hf _ IH2]; subst.
    + assert (Hstep : tick act (Fallback (length b) (b ++ c :: cs)) w = tick act (Fallback (length b + 1) (b ++ c' :: cs)) w1).
      { rewrite fallback_tick. replace (length b + 1) with (length (b ++ [c'])) by (rewrite app_length; reflexivity).
        replace (b ++ c' :: cs) with ((b ++ [c']) ++ cs) by (rewrite <- app_assoc; reflexivity).
        rewrite fallback_tick. cbn [fallback_loop]. rewrite (proj2 (Nat.ltb_ge (length b) 0)) by lia.
        change (fix go (pos0 : nat) (cs0 : list node) (w0 : W) {struct cs0} := _) with (fallback_loop (tick act) 0).
        rewrite E. cbn [rbind]. rewrite app_length. cbn [length]. rewrite Nat.add_1_r.
        destruct (fallback_loop (tick act) 0 (S (length b)) cs w1) as [[[[s1 i] r] w2]| | |]; cbn; try reflexivity.
        now rewrite <- app_assoc. }
      inversion IH; subst.
      * apply settles_now; [rewrite Hstep|]; assumption.
      * eapply settles_later; [rewrite Hstep; eassumption|eassumption|eassumption].
    + eapply settles_later; [|exact Hf|exact (IH2 eq_refl IH)].
      rewrite fallback_tick. cbn [fallback_loop]. rewrite (proj2 (Nat.ltb_ge (length b) 0)) by lia. rewrite E.
      destruct t; try reflexivity; exfalso; apply Hf; unfold final; auto.
  - induction Hc as [c w s c' w1 E Hf|c w t c1 w2 s c' w1 E Hf _ IH2].
    + apply settles_now; [|exact Hf]. rewrite fallback_tick. cbn [fallback_loop].
      rewrite (proj2 (Nat.ltb_ge (length b) 0)) by lia. rewrite E. destruct Hf; subst; [reflexivity|congruence].
    + eapply settles_later; [|exact Hf|exact (IH2 Hn)].
      rewrite fallback_tick. cbn [fallback_loop]. rewrite (proj2 (Nat.ltb_ge (length b) 0)) by lia. rewrite E.
      destruct t; try reflexivity; exfalso; apply Hf; unfold final; auto.
Qed.

(** Which child a node waits for. *)
Lemma sequence_unfinished (tk : node -> W -> res (status * node * W)) ix cs : forall pos w s i cs' w',
  sequence_loop tk ix pos cs w = Ok (s, i, cs', w') -> ~ final s ->
  exists k c w0 c', i = pos + k /\ nth_error cs k = Some c /\ nth_error cs' k = Some c' /\ tk c w0 = Ok (s, c', w').
Proof.
  induction cs as [|c cs IH]; intros pos w s i cs' w' H Hs; cbn in H.
  - injection H as <- <- <- <-. exfalso. apply Hs. unfold final. auto.
  - destruct (pos <? ix).
    + destruct (sequence_loop tk ix (S pos) cs w) as [[[[s1 i1] r1] w2]| | |] eqn:E2; cbn in H; try discriminate.
      injection H as <- <- <- <-. destruct (IH _ _ _ _ _ _ E2 Hs) as (k & d & w0 & d' & -> & H1 & H2 & H3).
      exists (S k), d, w0, d'. repeat split; try assumption. lia.
    + destruct (tk c w) as [[[a c'] w1]| | |] eqn:E; cbn in H; try discriminate. destruct a.
      all: try (injection H as <- <- <- <-; first [exfalso; apply Hs; unfold final; auto; fail
        | exists 0, c, w, c'; repeat split; [lia|exact E]]).
      destruct (sequence_loop tk ix (S pos) cs w1) as [[[[s1 i1] r1] w2]| | |] eqn:E2; cbn in H; try discriminate.
      injection H as <- <- <- <-. destruct (IH _ _ _ _ _ _ E2 Hs) as (k & d & w0 & d' & -> & H1 & H2 & H3).
      exists (S k), d, w0, d'. repeat split; try assumption. lia.
Qed.
Lemma fallback_unfinished (tk : node -> W -> res (status * node * W)) ix cs : forall pos w s i cs' w',
  fallback_loop tk ix pos cs w = Ok (s, i, cs', w') -> ~ final s ->
  exists k c w0 c', i = pos + k /\ nth_error cs k = Some c /\ nth_error cs' k = Some c' /\ tk c w0 = Ok (s, c', w').
Proof.
  induction cs as [|c cs IH]; intros pos w s i cs' w' H Hs; cbn in H.
  - injection H as <- <- <- <-. exfalso. apply Hs. unfold final. auto.
  - destruct (pos <? ix).
    + destruct (fallback_loop tk ix (S pos) cs w) as [[[[s1 i1] r1] w2]| | |] eqn:E2; cbn in H; try discriminate.
      injection H as <- <- <- <-. destruct (IH _ _ _ _ _ _ E2 Hs) as (k & d & w0 & d' & -> & H1 & H2 & H3).
      exists (S k), d, w0, d'. repeat split; try assumption. lia.
    + destruct (tk c w) as [[[a c'] w1]| | |] eqn:E; cbn in H; try discriminate. destruct a.
      all: try (injection H as <- <- <- <-; first [exfalso; apply Hs; unfold final; auto; fail
        | exists 0, c, w, c'; repeat split; [lia|exact E]]).
      destruct (fallback_loop tk ix (S pos) cs w1) as [[[[s1 i1] r1] w2]| | |] eqn:E2; cbn in H; try discriminate.
      injection H as <- <- <- <-. destruct (IH _ _ _ _ _ _ E2 Hs) as (k & d & w0 & d' & -> & H1 & H2 & H3).
      exists (S k), d, w0, d'. repeat split; try assumption. lia.
Qed.

(** One tick of the reactive nodes, both ways. *)
Lemma reactive_sequence_once cs : forall w s cs' w',
  reactive_sequence_loop (tick act) cs w = Ok (s, cs', w') <-> once_each (tick act) Success cs w s cs' w'.
Proof.
  induction cs as [|c cs IH]; intros w s cs' w'; cbn.
  - split; [intros [= <- <- <-]; constructor|inversion 1; reflexivity].
  - split.
    + destruct (tick act c w) as [[[a c'] w1]| | |] eqn:E; cbn; try discriminate.
      destruct a; try (intros [= <- <- <-]; apply once_stop; [exact E|discriminate]).
      destruct (reactive_sequence_loop (tick act) cs w1) as [[[s1 r1] w2]| | |] eqn:E2; cbn; try discriminate.
      intros [= <- <- <-]. eapply once_next; [exact E|]. now apply IH.
    + inversion 1 as [|c0 w0 c' w1 cs0 s0 cs1 w2 E Ho|c0 w0 s0 c' w1 cs0 E Hn]; subst; rewrite E; cbn.
      * apply IH in Ho. rewrite Ho. reflexivity.
      * destruct s; try reflexivity. congruence.
Qed.
Lemma reactive_fallback_once cs : forall w s cs' w',
  reactive_fallback_loop (tick act) cs w = Ok (s, cs', w') <-> once_each (tick act) Failure cs w s cs' w'.
Proof.
  induction cs as [|c cs IH]; intros w s cs' w'; cbn.
  - split; [intros [= <- <- <-]; constructor|inversion 1; reflexivity].
  - split.
    + destruct (tick act c w) as [[[a c'] w1]| | |] eqn:E; cbn; try discriminate.
      destruct a; try (intros [= <- <- <-]; apply once_stop; [exact E|discriminate]).
      destruct (reactive_fallback_loop (tick act) cs w1) as [[[s1 r1] w2]| | |] eqn:E2; cbn; try discriminate.
      intros [= <- <- <-]. eapply once_next; [exact E|]. now apply IH.
    + inversion 1 as [|c0 w0 c' w1 cs0 s0 cs1 w2 E Ho|c0 w0 s0 c' w1 cs0 E Hn]; subst; rewrite E; cbn.
      * apply IH in Ho. rewrite Ho. reflexivity.
      * destruct s; try reflexivity. congruence.
Qed.

(** Trees as formulas. *)
Definition truth (b : bool) : status := if b then Success else Failure.
Context (v : nat -> bool) (Hact : forall id w, act id w = Ok (truth (v id), w)).
Definition good (n : node) := forall w, exists n', tick act n w = Ok (truth (holds v n), n', w) /\ logical n' /\
  forall u, holds u n' = holds u n.
Lemma good_list_seq cs : Forall good cs -> forall pos w, exists cs',
  sequence_loop (tick act) 0 pos cs w = Ok (truth (forallb (holds v) cs), 0, cs', w) /\
  (Forall logical cs -> Forall logical cs') /\ (forall u, map (holds u) cs' = map (holds u) cs).
Proof.
  induction 1 as [|c cs Hc _ IH]; intros pos w; cbn.
  - exists []. auto.
  - destruct (Hc w) as (c' & E & Hl & Hh). rewrite E. cbn. destruct (holds v c); cbn.
    + destruct (IH (S pos) w) as (r & Er & Hr & Hm). rewrite Er. cbn. exists (c' :: r). repeat split.
      * intros Hf. inversion Hf; subst. constructor; auto.
      * intros u. cbn. now rewrite Hh, Hm.
    + exists (c' :: cs). repeat split.
      * intros Hf. inversion Hf; subst. constructor; auto.
      * intros u. cbn. now rewrite Hh.
Qed.
Lemma good_list_fall cs : Forall good cs -> forall pos w, exists cs',
  fallback_loop (tick act) 0 pos cs w = Ok (truth (existsb (holds v) cs), 0, cs', w) /\
  (Forall logical cs -> Forall logical cs') /\ (forall u, map (holds u) cs' = map (holds u) cs).
Proof.
  induction 1 as [|c cs Hc _ IH]; intros pos w; cbn.
  - exists []. auto.
  - destruct (Hc w) as (c' & E & Hl & Hh). rewrite E. cbn. destruct (holds v c); cbn.
    + exists (c' :: cs). repeat split.
      * intros Hf. inversion Hf; subst. constructor; auto.
      * intros u. cbn. now rewrite Hh.
    + destruct (IH (S pos) w) as (r & Er & Hr & Hm). rewrite Er. cbn. exists (c' :: r). repeat split.
      * intros Hf. inversion Hf; subst. constructor; auto.
      * intros u. cbn. now rewrite Hh, Hm.
Qed.
Lemma good_list_rseq cs : Forall good cs -> forall w, exists cs',
  reactive_sequence_loop (tick act) cs w = Ok (truth (forallb (holds v) cs), cs', w) /\
  (Forall logical cs -> Forall logical cs') /\ (forall u, map (holds u) cs' = map (holds u) cs).
Proof.
  induction 1 as [|c cs Hc _ IH]; intros w; cbn.
  - exists []. auto.
  - destruct (Hc w) as (c' & E & Hl & Hh). rewrite E. cbn. destruct (holds v c); cbn.
    + destruct (IH w) as (r & Er & Hr & Hm). rewrite Er. cbn. exists (c' :: r). repeat split.
      * intros Hf. inversion Hf; subst. constructor; auto.
      * intros u. cbn. now rewrite Hh, Hm.
    + exists (c' :: cs). repeat split.
      * intros Hf. inversion Hf; subst. constructor; auto.
      * intros u. cbn. now rewrite Hh.
Qed.
Lemma good_list_rfall cs : Forall good cs -> forall w, exists cs',
  reactive_fallback_loop (tick act) cs w = Ok (truth (existsb (holds v) cs), cs', w) /\
  (Forall logical cs -> Forall logical cs') /\ (forall u, map (holds u) cs' = map (holds u) cs).
Proof.
  induction 1 as [|c cs Hc _ IH]; intros w; cbn.
  - exists []. auto.
  - destruct (Hc w) as (c' & E & Hl & Hh). rewrite E. cbn. destruct (holds v c); cbn.
    + exists (c' :: cs). repeat split.
      * intros Hf. inversion Hf; subst. constructor; auto.
      * intros u. cbn. now rewrite Hh.
    + destruct (IH w) as (r & Er & Hr & Hm). rewrite Er. cbn. exists (c' :: r). repeat split.
      * intros Hf. inversion Hf; subst. constructor; auto.
      * intros u. cbn. now rewrite Hh, Hm.
Qed.
Lemma forallb_map_eq (f g : node -> bool) cs cs' : map f cs = map g cs' -> forallb f cs = forallb g cs'.
Proof.
  revert cs'. induction cs as [|c cs IH]; intros [|c' cs'] H; cbn in *; try discriminate; [reflexivity|].
  injection H as -> H. now rewrite (IH _ H).
Qed.
Lemma existsb_map_eq (f g : node -> bool) cs cs' : map f cs = map g cs' -> existsb f cs = existsb g cs'.
Proof.
  revert cs'. induction cs as [|c cs IH]; intros [|c' cs'] H; cbn in *; try discriminate; [reflexivity|].
  injection H as -> H. now rewrite (IH _ H).
Qed.

Lemma logical_good : forall n, logical n -> good n.
Proof.
  fix rec 2. intros n H. destruct H as [id|cs H|cs H|cs H|cs H|st c H].
  - intros w. exists (Leaf id). cbn. rewrite Hact. cbn. repeat split. constructor.
  - assert (Hg : Forall good cs).
    { clear - H rec. induction H as [|c cs Hc H IH]; constructor; [apply rec; exact Hc|exact IH]. }
    intros w. destruct (good_list_seq cs Hg 0 w) as (cs' & E & Hl & Hm). cbn [tick]. rewrite E. cbn.
    eexists. split; [reflexivity|]. split; [constructor; auto|]. intros u. cbn. now apply forallb_map_eq.
  - assert (Hg : Forall good cs).
    { clear - H rec. induction H as [|c cs Hc H IH]; constructor; [apply rec; exact Hc|exact IH]. }
    intros w. destruct (good_list_fall cs Hg 0 w) as (cs' & E & Hl & Hm). cbn [tick]. rewrite E. cbn.
    eexists. split; [reflexivity|]. split; [constructor; auto|]. intros u. cbn. now apply existsb_map_eq.
  - assert (Hg : Forall good cs).
    { clear - H rec. induction H as [|c cs Hc H IH]; constructor; [apply rec; exact Hc|exact IH]. }
    intros w. destruct (good_list_rseq cs Hg w) as (cs' & E & Hl & Hm). cbn [tick]. rewrite E. cbn.
    eexists. split; [reflexivity|]. split; [constructor; auto|]. intros u. cbn. now apply forallb_map_eq.
  - assert (Hg : Forall good cs).
    { clear - H rec. induction H as [|c cs Hc H IH]; constructor; [apply rec; exact Hc|exact IH]. }
    intros w. destruct (good_list_rfall cs Hg w) as (cs' & E & Hl & Hm). cbn [tick]. rewrite E. cbn.
    eexists. split; [reflexivity|]. split; [constructor; auto|]. intros u. cbn. now apply existsb_map_eq.
  - intros w. destruct (rec c H w) as (c' & E & Hl & Hh). cbn [tick]. rewrite E. cbn.
    destruct (holds v c) eqn:Eh; cbn.
    + eexists. split; [reflexivity|]. split; [constructor; exact Hl|]. intros u. cbn. now rewrite Hh.
    + eexists. split; [reflexivity|]. split; [constructor; exact Hl|]. intros u. cbn. now rewrite Hh.
Qed.
End Proofs.
