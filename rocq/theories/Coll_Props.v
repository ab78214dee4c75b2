(** The library collections: C49-C54. *)
From Coq Require Import ZArith Sorting.
From Verif Require Import Base Coll_Model Coll_Spec Coll_Proofs Coll_Steps Coll_Runs Coll_Runs2 Coll_Map.
Open Scope Z_scope.

(** ** C49: List, Vector and DoubleLinkedList behave as sequences *)
Lemma plain_runs {V} (eqv : V -> V -> bool) k os : forall ls, all_ok (seq_step eqv) (plain k) ls os ->
  all_ok (seq_step' eqv) (allowed k) (map (fun l => (l, false)) ls) os /\
  spec_run (seq_step' eqv) (map (fun l => (l, false)) ls) os = spec_run (seq_step eqv) ls os.
Proof.
  induction os as [|[x o] os IH]; intros ls H; [split; reflexivity|]. cbn [all_ok spec_run] in *.
  rewrite list_lookup_fmap. destruct (ls !! x) as [l|]; cbn [fmap option_fmap option_map].
  2: { destruct (IH ls H) as [E1 E2]. split; [exact E1|]. f_equal. exact E2. }
  destruct H as [Hp H].
  assert (Sq : seq_step' eqv (l, false) o = match seq_step eqv l o with Ok (l', a) => Ok (l', popped false o, a) | Throw e => Throw e | UB => UB | Fuel => Fuel end) by reflexivity.
  rewrite Sq. clear Sq.
  assert (D : popped false o = false) by (destruct o; cbn in Hp; try reflexivity; contradiction).
  assert (A : allowed k (l, false) o) by (destruct o; cbn in *; auto; discriminate).
  destruct (seq_step eqv l o) as [[l' a]|e| |] eqn:E.
  - rewrite D. destruct (IH _ H) as [E1 E2]. rewrite list_fmap_insert in E1, E2. split; [split; [exact A|exact E1]|]. f_equal. exact E2.
  - destruct (IH _ H) as [E1 E2]. split; [split; assumption|]. f_equal. exact E2.
  - destruct (IH _ H) as [E1 E2]. split; [split; assumption|]. f_equal. exact E2.
  - destruct (IH _ H) as [E1 E2]. split; [split; assumption|]. f_equal. exact E2.
Qed.
(** Whatever is done to any number of collections, as long as every call is a [plain] one, each call
    answers what it answers on the mathematical sequences. [f] is large enough for the loops, the
    number of calls is at most the largest int. *)
Theorem C49_sequences_partial {V} (eqv : V -> V -> bool) (k : kind) (f m : nat) (os : list (nat * lop V)) :
  Z.of_nat (length os) <= int_max -> (length os <= f)%nat ->
  all_ok (seq_step eqv) (plain k) (replicate m []) os ->
  sys_run (step eqv k f) (start m) os = spec_run (seq_step eqv) (replicate m []) os.
Proof.
  intros L1 L2 H. destruct (plain_runs eqv k os _ H) as [E1 E2]. rewrite <- E2.
  replace (map (fun l => (l, false)) (replicate m [])) with (replicate m (@nil V, false)) in * by (symmetry; apply (fmap_replicate (fun l => (l, false)))).
  apply seq_runs; assumption.
Qed.
Print Assumptions C49_sequences_partial.
Definition ex_calls : list (nat * lop Z) :=
  [(0%nat, PushBack 5); (0%nat, PushFront 7); (1%nat, PushBack 9); (0%nat, PushBack 8); (0%nat, Erase 1); (0%nat, Elements); (1%nat, At 1); (0%nat, PopFront); (0%nat, Last);
   (0%nat, IndexOf 8); (1%nat, Elements); (0%nat, Erase (-1)); (0%nat, Erase 0); (0%nat, First)].
Example C49_case : forall f, (14 <= f)%nat -> sys_run (step Z.eqb KList f) (start 2) ex_calls =
  [Ok AUnit; Ok AUnit; Ok AUnit; Ok AUnit; Ok AUnit; Ok (AList [7; 8] outside); outside; Ok AUnit; Ok (AVal 8); Ok (AInt 0); Ok (AList [9] outside);
   outside; Ok AUnit; outside].
Proof.
  intros f Hf. rewrite C49_sequences_partial; [reflexivity|discriminate|exact Hf|]. cbn. repeat split; discriminate.
Qed.
(** What is missing: erase(size) must fail, it removes the size of an element instead. *)
Theorem C49_erase_behind_end_refuted : forall f, (1 <= f)%nat ->
  let os := [(0%nat, PushBack 1); (0%nat, PushBack 2); (0%nat, Erase 2); (0%nat, Size)] in
  sys_run (step Z.eqb KList f) (start 1) os = [Ok AUnit; Ok AUnit; Ok AUnit; Ok (AInt 1)] /\
  spec_run (seq_step Z.eqb) [[]] os = [Ok AUnit; Ok AUnit; outside; Ok (AInt 2)].
Proof. intros [|f] H; [lia|]. split; vm_compute; reflexivity. Qed.
Print Assumptions C49_erase_behind_end_refuted.
(** DoubleLinkedList: push_front onto the empty list loses the tail, the next push_back fails. *)
Theorem C49_double_push_front_refuted : forall f,
  let os := [(0%nat, PushFront 1); (0%nat, PushBack 2)] in
  sys_run (step Z.eqb KDouble f) (start 1) os = [Ok AUnit; Throw "NullPointerException"] /\
  spec_run (seq_step Z.eqb) [[]] os = [Ok AUnit; Ok AUnit].
Proof. intros f. split; vm_compute; reflexivity. Qed.
Print Assumptions C49_double_push_front_refuted.
(** A copy shares its items with the original: appending to the copy makes the original's loops see the
    new element, although its size has not changed. *)
Theorem C49_copy_refuted : exists (h1 h2 : heap Z) c1 c2,
  list_push_back empty_heap new_coll 1 = Ok (h1, c1) /\ list_push_back h1 (copy c1) 2 = Ok (h2, c2) /\
  all_elements 5 h1 c1 = Ok (h1, c1, AList [1] outside) /\ all_elements 5 h2 c1 = Ok (h2, c1, AList [1; 2] outside) /\ c_size c1 = 1.
Proof. eexists _, _, _, _. split; [vm_compute; reflexivity|]. split; [vm_compute; reflexivity|]. repeat split; vm_compute; reflexivity. Qed.
Print Assumptions C49_copy_refuted.

(** ** C50: removing the last element *)
(** pop_back included: right as long as, after a pop_back and until the collection has been emptied,
    nothing looks at the tail (last, iteration, erase, insert, push). *)
Theorem C50_pop_back_partial {V} (eqv : V -> V -> bool) (k : kind) (f m : nat) (os : list (nat * lop V)) :
  Z.of_nat (length os) <= int_max -> (length os <= f)%nat ->
  all_ok (seq_step' eqv) (allowed k) (replicate m ([], false)) os ->
  sys_run (step eqv k f) (start m) os = spec_run (seq_step' eqv) (replicate m ([], false)) os.
Proof. apply seq_runs. Qed.
Print Assumptions C50_pop_back_partial.
Example C50_case : forall f, (9 <= f)%nat -> sys_run (step Z.eqb KVector f) (start 1)
   [(0%nat, PushBack 5); (0%nat, PushBack 7); (0%nat, PopBack); (0%nat, Size); (0%nat, At 0); (0%nat, At 1); (0%nat, PopBack); (0%nat, PushBack 4); (0%nat, Last)] =
  [Ok AUnit; Ok AUnit; Ok AUnit; Ok (AInt 1); Ok (AVal 5); outside; Ok AUnit; Ok AUnit; Ok (AVal 4)].
Proof.
  intros f Hf. rewrite C50_pop_back_partial; [reflexivity|discriminate|exact Hf|]. cbn. repeat split; discriminate.
Qed.
(** Missing: last() after pop_back is the removed element; push_back after pop_back brings the removed
    element back. *)
Theorem C50_last_after_pop_refuted : forall f k,
  let os := [(0%nat, PushBack 1); (0%nat, PushBack 2); (0%nat, PopBack); (0%nat, Last)] in
  sys_run (step Z.eqb k f) (start 1) os = [Ok AUnit; Ok AUnit; Ok AUnit; Ok (AVal 2)] /\
  spec_run (seq_step Z.eqb) [[]] os = [Ok AUnit; Ok AUnit; Ok AUnit; Ok (AVal 1)].
Proof. intros f []; split; vm_compute; reflexivity. Qed.
Print Assumptions C50_last_after_pop_refuted.
Theorem C50_push_after_pop_refuted : forall f k,
  let os := [(0%nat, PushBack 1); (0%nat, PushBack 2); (0%nat, PopBack); (0%nat, PushBack 3); (0%nat, At 1)] in
  sys_run (step Z.eqb k f) (start 1) os = [Ok AUnit; Ok AUnit; Ok AUnit; Ok AUnit; Ok (AVal 2)] /\
  spec_run (seq_step Z.eqb) [[]] os = [Ok AUnit; Ok AUnit; Ok AUnit; Ok AUnit; Ok (AVal 3)].
Proof. intros f []; split; vm_compute; reflexivity. Qed.
Print Assumptions C50_push_after_pop_refuted.
(** Stacks: last in, first out, as long as nothing looks at the top between a pop and the stack
    being empty. *)
Theorem C50_stack_partial {V} (eqv : V -> V -> bool) (f m : nat) (os : list (nat * sop V)) :
  Z.of_nat (length os) <= int_max -> (length os <= f)%nat ->
  all_ok (lifo_step' eqv) stack_ok (replicate m ([], false)) os ->
  sys_run (stack_step eqv f) (start m) os = spec_run (lifo_step' eqv) (replicate m ([], false)) os.
Proof. apply stack_runs. Qed.
Print Assumptions C50_stack_partial.
Example C50_stack_case : forall f, (8 <= f)%nat -> sys_run (stack_step Z.eqb f) (start 1)
   [(0%nat, Push 5); (0%nat, Push 7); (0%nat, Peek); (0%nat, Pop); (0%nat, SSize); (0%nat, SAt 0); (0%nat, SClear); (0%nat, Pop)] =
  [Ok AUnit; Ok AUnit; Ok (AVal 7); Ok (AVal 7); Ok (AInt 1); Ok (AVal 5); Ok AUnit; outside].
Proof.
  intros f Hf. rewrite C50_stack_partial; [reflexivity|discriminate|exact Hf|]. cbn. repeat split; discriminate.
Qed.
(** Missing: the second pop returns the same element again. *)
Theorem C50_second_pop_refuted : forall f,
  let os := [(0%nat, Push 1); (0%nat, Push 2); (0%nat, Pop); (0%nat, Pop)] in
  sys_run (stack_step Z.eqb f) (start 1) os = [Ok AUnit; Ok AUnit; Ok (AVal 2); Ok (AVal 2)] /\
  spec_run (lifo_step Z.eqb) [[]] os = [Ok AUnit; Ok AUnit; Ok (AVal 2); Ok (AVal 1)].
Proof. intros f. split; vm_compute; reflexivity. Qed.
Print Assumptions C50_second_pop_refuted.

(** ** C51: queues *)
(** For every history of calls on any number of queues, every answer is the one of the mathematical
    queue; peek is covered only for queues with less than two elements. *)
Theorem C51_first_in_first_out {V} (f m : nat) (os : list (nat * qop V)) :
  Z.of_nat (length os) <= int_max -> (length os <= f)%nat -> all_ok fifo_step queue_ok (replicate m []) os ->
  sys_run (queue_step f) (start m) os = spec_run fifo_step (replicate m []) os.
Proof. apply queue_runs. Qed.
Print Assumptions C51_first_in_first_out.
Example C51_case : forall f, (7 <= f)%nat -> sys_run (queue_step f) (start 2)
   [(0%nat, Enqueue 5); (1%nat, Enqueue 7); (0%nat, Enqueue 6); (0%nat, Dequeue); (0%nat, Dequeue); (0%nat, Dequeue); (1%nat, Dequeue)] =
  [Ok AUnit; Ok AUnit; Ok AUnit; Ok (AVal 5); Ok (AVal 6); outside; Ok (AVal 7)].
Proof. intros f Hf. rewrite C51_first_in_first_out; [reflexivity|discriminate|exact Hf|]. cbn. repeat split. Qed.
(** peek returns the element that will leave last. *)
Theorem C51_peek_refuted : forall f,
  let os := [(0%nat, Enqueue 1); (0%nat, Enqueue 2); (0%nat, QPeek); (0%nat, Dequeue)] in
  sys_run (queue_step f) (start 1) os = [Ok AUnit; Ok AUnit; Ok (AVal 2); Ok (AVal 1)] /\
  spec_run fifo_step [[]] os = [Ok AUnit; Ok AUnit; Ok (AVal 1); Ok (AVal 1)].
Proof. intros f. split; vm_compute; reflexivity. Qed.
Print Assumptions C51_peek_refuted.

(** ** C52: maps *)
(** For keys compared by an equality test: every answer is the one of the finite map, provided insert
    is used for absent keys only and indexOf is not used. *)
Theorem C52_finite_map {K W} (eqk : K -> K -> bool) (f m : nat) (os : list (nat * mop K W)) :
  (forall a b, eqk a b = true <-> a = b) ->
  Z.of_nat (length os) <= int_max -> (length os <= f)%nat ->
  all_ok (fmap_step eqk) map_ok (replicate m (fun _ => None, 0)) os ->
  sys_run (map_step eqk f) (start m) os = spec_run (fmap_step eqk) (replicate m (fun _ => None, 0)) os.
Proof. intros E. apply map_runs. exact E. Qed.
Print Assumptions C52_finite_map.
Example C52_case : forall f, (11 <= f)%nat -> sys_run (map_step Z.eqb f) (start 1)
   [(0%nat, MInsert 1 10); (0%nat, MInsert 2 20); (0%nat, MPut 1 11); (0%nat, MGet 1); (0%nat, MGet 2); (0%nat, MRemove 1); (0%nat, MContains 1); (0%nat, MGet 1); (0%nat, MSize);
    (0%nat, MPut 3 1); (0%nat, MGet 2)] =
  [Ok MUnit; Ok MUnit; Ok MUnit; Ok (MVal 11); Ok (MVal 20); Ok MUnit; Ok (MBool false); Throw "Exception"; Ok (MInt 1); Throw "Exception"; Ok (MVal 20)].
Proof. intros f Hf. rewrite C52_finite_map; [reflexivity|apply Z.eqb_eq|discriminate|exact Hf|]. cbn. repeat split. Qed.
(** insert with a present key: get still finds the old value, and after remove the key is still there. *)
Theorem C52_insert_twice_refuted : forall f, (5 <= f)%nat ->
  let os := [(0%nat, MInsert 1 10); (0%nat, MInsert 1 20); (0%nat, MGet 1); (0%nat, MRemove 1); (0%nat, MContains 1)] in
  sys_run (map_step Z.eqb f) (start 1) os = [Ok MUnit; Ok MUnit; Ok (MVal 10); Ok MUnit; Ok (MBool true)] /\
  spec_run (fmap_step Z.eqb) [(fun _ => None, 0)] os = [Ok MUnit; Ok MUnit; Ok (MVal 20); Ok MUnit; Ok (MBool false)].
Proof. intros [|[|[|f]]] H; try lia. split; vm_compute; reflexivity. Qed.
Print Assumptions C52_insert_twice_refuted.
(** indexOf: 0 for every present key. *)
Theorem C52_index_of_refuted : forall f, (5 <= f)%nat ->
  sys_run (map_step Z.eqb f) (start 1) [(0%nat, MInsert 1 10); (0%nat, MInsert 2 20); (0%nat, MIndexOf 1); (0%nat, MIndexOf 2)] =
  [Ok MUnit; Ok MUnit; Ok (MInt 0); Ok (MInt 0)].
Proof. intros [|[|[|f]]] H; try lia. vm_compute. reflexivity. Qed.
Print Assumptions C52_index_of_refuted.

(** ** C53: sets *)
Theorem C53_histories_partial {V} (eqv lt : V -> V -> bool) (dups : bool) (f m : nat) (os : list (nat * setop V)) :
  Z.of_nat (length os) <= int_max -> (length os <= f)%nat -> all_ok (sorted_step eqv lt) set_ok (replicate m []) os ->
  sys_run (set_step eqv lt dups f) (start m) os = spec_run (sorted_step eqv lt) (replicate m []) os.
Proof. apply set_runs. Qed.
Print Assumptions C53_histories_partial.
Lemma insertions {V} (eqv lt : V -> V -> bool) vs : forall l,
  let os := map (fun v => (0%nat, SetInsert v)) vs ++ [(0%nat, SetElements)] in
  all_ok (sorted_step eqv lt) set_ok [l] os /\
  spec_run (sorted_step eqv lt) [l] os = map (fun _ => Ok AUnit) vs ++ [Ok (AList (fold_left (fun l v => put_sorted lt v l) vs l) outside)].
Proof.
  induction vs as [|v vs IH]; intros l; [repeat split|]. cbn. destruct (IH (put_sorted lt v l)) as [E1 E2]. split; [split; [exact I|exact E1]|].
  f_equal. exact E2.
Qed.
Lemma insertions_sorted {V} (lt : V -> V -> bool) vs : (forall x y, lt x y = true -> lt y x = false) ->
  (forall x y z, lt y x = false -> lt z y = false -> lt z x = false) -> forall l, StronglySorted (fun x y => lt y x = false) l ->
  StronglySorted (fun x y => lt y x = false) (fold_left (fun l v => put_sorted lt v l) vs l) /\ fold_left (fun l v => put_sorted lt v l) vs l ≡ₚ vs ++ l.
Proof.
  intros A T. induction vs as [|v vs IH]; intros l S; [split; [exact S|reflexivity]|]. cbn [fold_left]. destruct (IH _ (put_sorted_sorted lt A T v l S)) as [E1 E2].
  split; [exact E1|]. rewrite E2, put_sorted_perm. symmetry. apply Permutation_middle.
Qed.
(** Inserting any elements in any order and iterating: the same elements, none before a smaller one.
    [lt] is a strict order with transitive incomparability. *)
Theorem C53_sorted {V} (eqv lt : V -> V -> bool) (dups : bool) (f : nat) (vs : list V) :
  (forall x y, lt x y = true -> lt y x = false) -> (forall x y z, lt y x = false -> lt z y = false -> lt z x = false) ->
  Z.of_nat (length vs) < int_max -> (length vs < f)%nat ->
  exists l, sys_run (set_step eqv lt dups f) (start 1) (map (fun v => (0%nat, SetInsert v)) vs ++ [(0%nat, SetElements)]) =
      map (fun _ => Ok AUnit) vs ++ [Ok (AList l outside)] /\
    StronglySorted (fun x y => lt y x = false) l /\ Permutation l vs.
Proof.
  intros A T L1 L2. destruct (insertions eqv lt vs []) as [E1 E2]. destruct (insertions_sorted lt vs A T [] (SSorted_nil _)) as [S P].
  exists (fold_left (fun l v => put_sorted lt v l) vs []). split; [|split; [exact S|rewrite P, app_nil_r; reflexivity]].
  rewrite C53_histories_partial; [exact E2| | |exact E1]; rewrite app_length, map_length; cbn [length]; lia.
Qed.
Print Assumptions C53_sorted.
Example C53_case : forall f, (5 <= f)%nat -> sys_run (set_step Z.eqb Z.ltb false f) (start 1) (map (fun v => (0%nat, SetInsert v)) [3; 1; 2] ++ [(0%nat, SetElements)]) =
  [Ok AUnit; Ok AUnit; Ok AUnit; Ok (AList [1; 2; 3] outside)].
Proof. intros f Hf. rewrite C53_histories_partial; [reflexivity|discriminate|cbn; lia|]. cbn. repeat split. Qed.
(** Duplicates are never rejected. *)
Theorem C53_duplicates_refuted : forall f, (4 <= f)%nat ->
  sys_run (set_step Z.eqb Z.ltb false f) (start 1) [(0%nat, SetInsert 1); (0%nat, SetInsert 1); (0%nat, SetElements)] =
  [Ok AUnit; Ok AUnit; Ok (AList [1; 1] outside)].
Proof. intros [|[|[|f]]] H; try lia. vm_compute. reflexivity. Qed.
Print Assumptions C53_duplicates_refuted.
(** last() is not the last element. *)
Theorem C53_last_refuted : forall f, (4 <= f)%nat ->
  sys_run (set_step Z.eqb Z.ltb false f) (start 1) [(0%nat, SetInsert 1); (0%nat, SetInsert 2); (0%nat, SetElements); (0%nat, SetLast)] =
  [Ok AUnit; Ok AUnit; Ok (AList [1; 2] outside); Ok (AVal 1)].
Proof. intros [|[|[|f]]] H; try lia. vm_compute. reflexivity. Qed.
Print Assumptions C53_last_refuted.

(** ** C54: iteration *)
Lemma all_ok_app {S O A} (spec : S -> O -> res (S * A)) ok os2 os1 : forall ss, all_ok spec ok ss (os1 ++ os2) -> all_ok spec ok ss os1.
Proof.
  induction os1 as [|[x o] os1 IH]; intros ss H; [exact I|]. cbn [app all_ok] in *. destruct (ss !! x); [|apply IH; exact H].
  destruct H as [H0 H]. split; [exact H0|]. destruct (spec s o) as [[s' a]| | |]; apply IH; exact H.
Qed.
(** After any plain history: iterating a collection from a fresh iterator yields its elements in order,
    and next() then fails. The elements are those of the sequence that the history leaves behind. *)
Fixpoint final {V} (eqv : V -> V -> bool) (ls : list (list V)) (os : list (nat * lop V)) : list (list V) :=
  match os with
  | [] => ls
  | (x, o) :: os => final eqv (match ls !! x with
                               | Some l => match seq_step eqv l o with Ok (l', _) => <[x := l']> ls | _ => ls end
                               | None => ls
                               end) os
  end.
Lemma final_run {V} (eqv : V -> V -> bool) k x os : forall ls l, all_ok (seq_step eqv) (plain k) ls os -> final eqv ls os !! x = Some l ->
  all_ok (seq_step eqv) (plain k) ls (os ++ [(x, Elements)]) /\
  spec_run (seq_step eqv) ls (os ++ [(x, Elements)]) = spec_run (seq_step eqv) ls os ++ [Ok (AList l outside)].
Proof.
  induction os as [|[y o] os IH]; intros ls l H Hl.
  - cbn in *. rewrite Hl. repeat split.
  - cbn [app all_ok spec_run final] in *. destruct (ls !! y) as [s|].
    2: { destruct (IH _ _ H Hl) as [E1 E2]. split; [exact E1|]. cbn [app]. f_equal. exact E2. }
    destruct H as [H0 H]. destruct (seq_step eqv s o) as [[s' a]| | |]; destruct (IH _ _ H Hl) as [E1 E2]; (split; [split; [exact H0|exact E1]|]; cbn [app]; f_equal; exact E2).
Qed.
Theorem C54_iteration_in_order {V} (eqv : V -> V -> bool) (k : kind) (f m x : nat) (os : list (nat * lop V)) (l : list V) :
  Z.of_nat (length os) < int_max -> (length os < f)%nat -> all_ok (seq_step eqv) (plain k) (replicate m []) os ->
  final eqv (replicate m []) os !! x = Some l ->
  sys_run (step eqv k f) (start m) (os ++ [(x, Elements)]) = sys_run (step eqv k f) (start m) os ++ [Ok (AList l outside)].
Proof.
  intros L1 L2 H Hl. destruct (final_run eqv k x os _ l H Hl) as [E1 E2].
  rewrite (C49_sequences_partial eqv k f m os), (C49_sequences_partial eqv k f m (os ++ _)); auto; try lia; rewrite ?app_length; cbn [length]; lia.
Qed.
Print Assumptions C54_iteration_in_order.
Example C54_case : final Z.eqb (replicate 2 []) ex_calls !! 1%nat = Some [9].
Proof. reflexivity. Qed.
(** current() after next() is the element next() returned. *)
Theorem C54_current {V} (h : heap V) (it it' : iter) (v : V) : next h it = Ok (v, it') -> current h it' = Ok v.
Proof.
  unfold next. destruct (has_next h it) as [b| | |]; cbn [rbind]; try discriminate. destruct b; cbn [negb]; [|discriminate].
  destruct (if null (it_cur it) then Ok (it_first it) else next_of h (it_cur it)) as [a| | |]; cbn [rbind]; try discriminate.
  destruct (get h a) as [i| | |] eqn:Eg; cbn [rbind]; try discriminate. intros [= <- <-]. unfold current. cbn [it_cur].
  assert (Na : null a = false) by (unfold get in Eg; destruct (h_items h !! a); [destruct (null a); [discriminate|reflexivity]|discriminate]).
  rewrite Na, Eg. reflexivity.
Qed.
Print Assumptions C54_current.
(** The reverse iterator never works: hasNext() is true on every collection that has elements, next()
    fails. *)
Theorem C54_reverse_refuted {V} (h : heap V) (c : coll) : c_last c <> 0%N ->
  r_has_next h (reverse_iterator c) = Ok true /\ r_next h (reverse_iterator c) = Throw "NullPointerException".
Proof.
  intros H. unfold r_next, r_has_next, has_previous, reverse_iterator. cbn [it_first it_cur]. change (null 0) with true.
  replace (null (c_last c)) with false by (symmetry; apply N.eqb_neq; exact H). cbn [negb rbind]. split; [reflexivity|].
  unfold get. change (null 0) with true. destruct (h_items h !! 0%N); reflexivity.
Qed.
Print Assumptions C54_reverse_refuted.
Example C54_reverse_case : exists h c, list_push_back empty_heap new_coll 5 = Ok (h, c) /\ c_last c <> 0%N.
Proof. eexists _, _. split; [vm_compute; reflexivity|]. discriminate. Qed.
(** Over a collection without elements no iterator has anything in front of it or behind it. *)
Theorem C54_empty {V} (h : heap V) (c : coll) : c_first c = 0%N -> c_last c = 0%N ->
  has_next h (iterator c) = Ok false /\ has_previous h (iterator c) = Ok false /\ r_has_next h (reverse_iterator c) = Ok false /\
  next h (iterator c) = Throw "OutOfBoundsException" /\ previous h (iterator c) = Throw "OutOfBoundsException" /\
  r_next h (reverse_iterator c) = Throw "OutOfBoundsException".
Proof.
  intros H1 H2. unfold next, previous, r_next, r_has_next, has_next, has_previous, iterator, reverse_iterator. cbn [it_first it_cur].
  rewrite H1, H2. by split_and!.
Qed.
Print Assumptions C54_empty.
Example C54_empty_case : c_first new_coll = 0%N /\ c_last new_coll = 0%N /\
  exists h c h' c', list_push_back empty_heap new_coll 5 = Ok (h, c) /\ erase 5 h c 0 = Ok (h', c') /\ c_first c' = 0%N.
Proof. split; [done|]. split; [done|]. eexists _, _, _, _. by split_and!; vm_compute. Qed.
(** previous() after an erase returns the erased element. *)
Theorem C54_previous_refuted : exists (h1 h2 h3 h4 : heap Z) c1 c2 c3 c4 it1 it2 it3,
  list_push_back empty_heap new_coll 1 = Ok (h1, c1) /\ list_push_back h1 c1 2 = Ok (h2, c2) /\ list_push_back h2 c2 3 = Ok (h3, c3) /\
  erase 5 h3 c3 1 = Ok (h4, c4) /\ all_elements 5 h4 c4 = Ok (h4, c4, AList [1; 3] outside) /\
  next h4 (iterator c4) = Ok (1, it1) /\ next h4 it1 = Ok (3, it2) /\ previous h4 it2 = Ok (2, it3).
Proof. eexists _, _, _, _, _, _, _, _, _, _, _. repeat (split; [vm_compute; reflexivity|]). vm_compute. reflexivity. Qed.
Print Assumptions C54_previous_refuted.
