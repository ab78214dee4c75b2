(** Property C56. *)
From Verif Require Import Base Base_Proofs Text_Model Frame_Model Frame_Spec Frame_Proofs.

(** A thread some sequence of pushes and pops leads to. *)
Definition reachable (t : thread) : Prop := exists n ops, frun ops (thread_init n) = Ok t.
Lemma reachable_finv t : reachable t -> finv t.
Proof. intros (n & ops & H). eapply frun_finv; [apply finv_init|exact H]. Qed.

(** Every balanced sequence of pushes and pops leaves all frames and scopes exactly as they were, and has deleted
    exactly the scopes made meanwhile. *)
Theorem C56_balanced_restores t ops : reachable t -> balanced ops -> is_ok (current_scope t) = true ->
  exists t', frun ops t = Ok t' /\ th_frames t' = th_frames t /\ current_scope t' = current_scope t /\
    forall i, i ∈ th_deleted t' <-> i ∈ th_deleted t \/ (th_next t <= i < th_next t')%N.
Proof.
  intros Hr Hb Hc. destruct (balanced_restores ops Hb t (reachable_finv t Hr)) as (t' & H & _ & Ef & _ & Hd).
  { unfold current_scope in Hc. destruct (th_frames t) as [|f fs]; [done|]. destruct (f_scopes f) as [|s ss] eqn:Es; [done|]. by exists f, fs, s, ss. }
  exists t'. split_and!; try done. unfold current_scope. by rewrite Ef.
Qed.
(** Popping a frame restores the frames below even when scopes of it are still open. *)
Theorem C56_frame_pop_restores t s ts ps inner d : reachable t -> within 1 inner (S d) ->
  exists t', frun (PushFrame s ts ps :: inner ++ [PopFrame]) t = Ok t' /\ th_frames t' = th_frames t /\ current_frame t' = current_frame t.
Proof.
  intros Hr Hw. apply reachable_finv in Hr as Hi. pose proof (push_frame_step s ts ps t Hi) as Hi1. cbn [frun fstep rbind]. rewrite frun_app.
  destruct (within_keeps _ _ _ Hw _ _ _ Hi1 eq_refl eq_refl) as (t2 & f2 & -> & Hi2 & Ef2 & Hl2 & _). cbn [rbind frun fstep].
  destruct (f_scopes f2) as [|s2 ss2] eqn:Es2; [done|]. destruct (pop_frame_step _ _ _ _ t2 Hi2 Ef2 Es2) as (t3 & -> & Hi3 & Ef3 & _). cbn [rbind].
  exists t3. split_and!; try done. unfold current_frame. by rewrite Ef3.
Qed.
(** While a frame runs, it stays the same frame: level, parameters, scope and tokens. *)
Theorem C56_frame_kept t s ts ps inner d t' : reachable t -> within 1 inner d -> frun (PushFrame s ts ps :: inner) t = Ok t' ->
  exists f, current_frame t' = Some f /\ f_level f = N.of_nat (length (th_frames t)) /\ f_params f = ps /\ f_scope f = s /\ f_tokens f = [ts].
Proof.
  intros Hr Hw. apply reachable_finv in Hr as Hi. pose proof (push_frame_step s ts ps t Hi) as Hi1. cbn [frun fstep rbind].
  destruct (within_keeps _ _ _ Hw _ _ _ Hi1 eq_refl eq_refl) as (t2 & f2 & -> & Hi2 & Ef2 & Hl2 & H). intros [= <-].
  exists f2. unfold current_frame. by rewrite Ef2.
Qed.
(** A sequence runs exactly when no pop lacks its push. *)
Theorem C56_defined_iff n ops : is_ok (frun ops (thread_init n)) = true <-> exists ds, legal [] ops ds.
Proof.
  split.
  - intros H. destruct (run_legal ops (thread_init n) (finv_init n)) as [(t' & _ & Hl)|E]; [|by rewrite E in H]. by exists (depths_of t').
  - intros (ds & Hl). destruct (legal_runs _ _ _ Hl (thread_init n) (finv_init n) eq_refl) as (t' & -> & _). done.
Qed.
(** Not true: popping from an empty stack is not reported, it is undefined. *)
Theorem C56_pop_empty_refuted n : frun [PopFrame] (thread_init n) = UB /\ frun [PopScope] (thread_init n) = UB /\
  frun [PushFrame 0 [] []; PopScope; PopScope] (thread_init n) = UB /\ frun [PushFrame 0 [] []; PopScope; PopFrame] (thread_init n) = UB.
Proof. done. Qed.
Theorem C56_never_reported n ops : frun ops (thread_init n) = UB \/ is_ok (frun ops (thread_init n)) = true.
Proof. destruct (run_legal ops (thread_init n) (finv_init n)) as [(t' & -> & _)|E]; [by right|by left]. Qed.
(** A scope opened without a given one is new and lies below the one that was current. *)
Theorem C56_new_scope_nested t t' : reachable t -> push_scope None t = Ok t' ->
  exists s top, current_scope t' = Ok s /\ current_scope t = Ok top /\ (s, top) ∈ th_parents t' /\
    s ∉ th_deleted t /\ forall f e, f ∈ th_frames t -> e ∈ f_scopes f -> ss_delete e = true -> ss_scope e <> s.
Proof.
  intros Hr H. apply reachable_finv in Hr as Hi. unfold push_scope in H. destruct (th_frames t) as [|f fs] eqn:Ef; [done|].
  destruct (f_scopes f) as [|top ss] eqn:Es; [done|]. injection H as <-. exists (th_next t), (ss_scope top).
  destruct Hi as (_ & _ & Hod & Hlt & _). split_and!; [done|unfold current_scope; by rewrite Ef, Es|left|intros H; apply Hlt in H; lia|].
  intros g e Hg He Hdel Hn. assert (ss_scope e ∈ owned t) as Ho.
  { unfold owned. rewrite Ef. apply elem_of_list_In, in_concat. exists (map ss_scope (List.filter ss_delete (f_scopes g))). split; [apply in_map_iff; exists g; split; [done|by apply elem_of_list_In]|].
    apply in_map, filter_In. split; [by apply elem_of_list_In|done]. }
  apply Hod in Ho as [_ Ho]. lia.
Qed.
(** No scope is deleted twice, and none that is still on a stack and owned by it. *)
Theorem C56_deleted_once t : reachable t -> NoDup (th_deleted t) /\
  forall f e, f ∈ th_frames t -> e ∈ f_scopes f -> ss_delete e = true -> ss_scope e ∉ th_deleted t.
Proof.
  intros Hr. apply reachable_finv in Hr as (_ & Hd & Hod & _ & _). split; [done|]. intros g e Hg He Hdel.
  apply Hod. unfold owned. apply elem_of_list_In, in_concat. exists (map ss_scope (List.filter ss_delete (f_scopes g))). split; [apply in_map_iff; exists g; split; [done|by apply elem_of_list_In]|].
  apply in_map, filter_In. split; [by apply elem_of_list_In|done].
Qed.
(** Not true: a scope still open when its frame is popped is deleted as well; only the top one is. *)
Theorem C56_open_scopes_leak_refuted : exists ops t, frun ops (thread_init 1) = Ok t /\ th_frames t = [] /\ th_next t = 3%N /\ th_deleted t = [2%N].
Proof. exists [PushFrame 0 [] []; PushScope None; PushScope None; PopFrame]. by eexists. Qed.
(** Frames are numbered from the outermost one. *)
Theorem C56_frame_levels t i f : reachable t -> frame_at i t = Some f -> f_level f = i.
Proof.
  intros (n & ops & H) Hf. assert (levels_ok (th_frames t)) as Hl by (eapply levels_run; [|exact H]; intros j g Hg; cbn in Hg; by rewrite lookup_nil in Hg).
  unfold frame_at in Hf. apply Hl in Hf. by rewrite N2Nat.id in Hf.
Qed.
Theorem C56_frame_numbers t : reachable t -> (forall i, frame_at i t <> None <-> (i < N.of_nat (length (th_frames t)))%N) /\
  (th_frames t <> [] -> frame_at (N.of_nat (length (th_frames t)) - 1) t = current_frame t).
Proof.
  intros _. split.
  - intros i. unfold frame_at. split.
    + intros H. apply not_eq_None_Some in H. apply lookup_lt_is_Some in H. rewrite reverse_length in H. lia.
    + intros H. apply not_eq_None_Some, lookup_lt_is_Some. rewrite reverse_length. lia.
  - intros H. unfold frame_at, current_frame. destruct (th_frames t) as [|f fs]; [done|]. cbn [length List.head]. rewrite reverse_cons.
    replace (N.to_nat (N.of_nat (S (length fs)) - 1)) with (length (reverse fs)) by (rewrite reverse_length; lia).
    rewrite lookup_app_r by done. by rewrite Nat.sub_diag.
Qed.
(** In a method, break and continue are allowed exactly while a scope opened by a statement that allows them is open. *)
Theorem C56_break_allowed ops open : open_requests ops [] = Some open ->
  exists flags, grun ops gen_init = Ok flags /\ (List.head flags = Some true <-> true ∈ open).
Proof.
  intros H. pose proof (grun_requests ops []) as E. rewrite H in E. exists (sums open). split; [exact E|].
  destruct (sums_head open) as [r ->]. cbn [List.head]. split.
  - intros [= E2]. apply existsb_exists in E2 as (b & Hin & Hb). destruct b; [|done]. by apply elem_of_list_In.
  - intros Hin. f_equal. apply existsb_exists. exists true. split; [by apply elem_of_list_In|done].
Qed.
(** Threads get different numbers, and a number leads to its thread; unknown numbers are reported. *)
Fixpoint create_all (k : nat) (s : threads) : threads := match k with O => s | S k' => (create_thread (create_all k' s)).1 end.
Theorem C56_thread_numbers m k i : let s := create_all k (Threads [] m) in
  get_thread i s = (if (i <? N.of_nat k)%N then Ok (m + i)%N else Throw "RuntimeException") /\
  (create_thread s).2 = N.of_nat k /\ forall s', delete_thread i s = Ok s' -> s' = s.
Proof.
  assert (forall k, let s := create_all k (Threads [] m) in tinv s /\ length (ts_map s) = k /\ ts_made s = (m + N.of_nat k)%N /\
    forall i, assoc i (ts_map s) = if (i <? N.of_nat k)%N then Some (m + i)%N else None) as H.
  { clear. induction k as [|k (Hi & Hl & Hm & Ha)]; cbn [create_all].
    - split_and!; [done|done|cbn; lia|intros i; by destruct i].
    - destruct (tinv_create _ Hi) as [Hi' E]. split_and!; [done|rewrite E; cbn; by rewrite Hl|unfold create_thread; cbn; rewrite Hm; lia|].
      intros i. rewrite E, Hl. cbn [assoc]. rewrite Ha. destruct (N.eqb_spec (N.of_nat k) i); [subst i|].
      + rewrite Hm. destruct (N.ltb_spec (N.of_nat k) (N.of_nat (S k))); [done|lia].
      + destruct (N.ltb_spec i (N.of_nat k)), (N.ltb_spec i (N.of_nat (S k))); try done; lia. }
  intros s. destruct (H k) as (Hi & Hl & Hm & Ha). subst s. split_and!.
  - unfold get_thread. rewrite Ha. by destruct (_ <? _)%N.
  - unfold create_thread. cbn [snd]. by rewrite Hl.
  - intros s'. unfold delete_thread. destruct (get_thread _ _); cbn; congruence.
Qed.

Example C56_balanced_example : balanced [PushFrame 0 [] [$"x"]; PushScope None; PushScope (Some 0%N); PopScope; PopScope; PopFrame] /\
  match frun [PushFrame 5 [] []; PushScope None] (thread_init 10) with Ok t => is_ok (current_scope t) = true | _ => False end.
Proof.
  split; [|done]. apply (bal_frame 0 [] [$"x"] [PushScope None; PushScope (Some 0%N); PopScope; PopScope] []); [|constructor].
  apply (bal_scope None [PushScope (Some 0%N); PopScope] []); [|constructor]. apply (bal_scope (Some 0%N) [] []); constructor.
Qed.
Example C56_within_example : within 1 [PushScope None; PushFrame 0 [] []; PopFrame; PushScope None] 3.
Proof. apply within_push. apply (within_frame 2 3 0 0 [] [] [] [PushScope None]); [constructor|]. apply within_push. constructor. Qed.
Example C56_break_example : open_requests [GPush false; GPush true; GPush false; GPop; GPush false] [] = Some [false; true; false].
Proof. done. Qed.

Print Assumptions C56_balanced_restores.
Print Assumptions C56_frame_pop_restores.
Print Assumptions C56_frame_kept.
Print Assumptions C56_defined_iff.
Print Assumptions C56_pop_empty_refuted.
Print Assumptions C56_never_reported.
Print Assumptions C56_new_scope_nested.
Print Assumptions C56_deleted_once.
Print Assumptions C56_open_scopes_leak_refuted.
Print Assumptions C56_frame_levels.
Print Assumptions C56_frame_numbers.
Print Assumptions C56_break_allowed.
Print Assumptions C56_thread_numbers.
