(** Property C57. *)
From Coq Require Import Sorting.Sorted.
From Verif Require Import Base Base_Proofs Text_Model Value_Model Debug_Model Debug_Spec Debug_Proofs.

(** Break points are a map from places to conditions: after any requests, the debugger holds a break point exactly where
    the latest request about the place added one, with that request's condition. *)
Theorem C57_latest_request ops d b : drun ops debugger_init = Ok d ->
  (b ∈ d_points d <-> condition_at (reverse ops) (b_file b) (b_line b) = Some (b_cond b)).
Proof.
  intros H. destruct (dinv_run ops [] _ _ dinv_init H) as (_ & _ & Hp). rewrite app_nil_r in Hp. apply Hp.
Qed.
Theorem C57_is_break_point ops d b : drun ops debugger_init = Ok d ->
  (is_point b d = true <-> exists c, condition_at (reverse ops) (b_file b) (b_line b) = Some c).
Proof.
  intros H. destruct (dinv_run ops [] _ _ dinv_init H) as (Hs & _ & Hp). rewrite app_nil_r in Hp. unfold is_point. split.
  - destruct (bfind b (d_points d)) as [x|] eqn:E; [|done]. intros _. apply bfind_iff in E as [Hin Hpl]; [|done]. apply Hp in Hin.
    exists (b_cond x). apply place_eq in Hpl as [-> ->]. done.
  - intros [c Hc]. assert (BPoint c (b_file b) (b_line b) ∈ d_points d) as Hin by (by apply Hp).
    destruct (bfind b (d_points d)) eqn:E; [done|]. by apply (proj1 (bfind_none b _ Hs) E) in Hin.
Qed.
(** They are listed by file name and line, every place once. *)
Theorem C57_listed_in_order ops d : drun ops debugger_init = Ok d ->
  StronglySorted before (map place (d_points d)) /\ NoDup (map place (d_points d)).
Proof.
  intros H. destruct (dinv_run ops [] _ _ dinv_init H) as (Hs & _ & _). clear H.
  assert (StronglySorted before (map place (d_points d))) as Hsort.
  { induction Hs as [|b s Hs IH Hb]; cbn [map]; constructor; [done|]. rewrite List.Forall_forall in Hb |- *. intros p Hp. apply in_map_iff in Hp as (x & <- & Hx). by apply Hb. }
  split; [done|]. induction Hsort as [|p ps Hs' IH Hp]; constructor; [|done]. intros Hin. rewrite List.Forall_forall in Hp. apply elem_of_list_In, Hp in Hin. by apply before_irrefl in Hin.
Qed.
(** A statement stops the program exactly when stepping over, or waiting for a break point and one is there; the receiver
    gets the condition added last. *)
Theorem C57_stops_iff ops d file line : drun ops debugger_init = Ok d -> d_receiver d <> None ->
  dbg_notify file line d =
    match stepping (reverse ops) with
    | AStepOver => Some (BPoint no_condition file line)
    | AWait => match condition_at (reverse ops) file line with Some c => Some (BPoint c file line) | None => None end
    | _ => None
    end.
Proof.
  intros H Hr. destruct (dinv_run ops [] _ _ dinv_init H) as (Hs & Hn & Hp). rewrite app_nil_r in Hn, Hp. unfold dbg_notify.
  destruct (d_receiver d); [|done]. rewrite Hn. destruct (stepping (reverse ops)); try done.
  destruct (condition_at (reverse ops) file line) as [c|] eqn:E.
  - apply bfind_iff; [done|]. split; [|done]. by apply Hp.
  - apply bfind_none; [done|]. intros x Hx Hpl. apply Hp in Hx. apply place_eq in Hpl as [Ef El]. cbn in Ef, El. rewrite <- Ef, <- El in Hx. congruence.
Qed.
Theorem C57_no_receiver d file line : d_receiver d = None ->
  dbg_notify file line d = None /\ dbg_notify_enter file line d = None /\ dbg_notify_exit file line d = None.
Proof. unfold dbg_notify, dbg_notify_enter, dbg_notify_exit. by intros ->. Qed.
(** Entering a method stops the program exactly when stepping into, leaving one exactly when stepping out. *)
Theorem C57_enter_exit ops d file line : drun ops debugger_init = Ok d -> d_receiver d <> None ->
  dbg_notify_enter file line d = (if decide (stepping (reverse ops) = AStepInto) then Some (BPoint no_condition file line) else None) /\
  dbg_notify_exit file line d = (if decide (stepping (reverse ops) = AStepOut) then Some (BPoint no_condition file line) else None).
Proof.
  intros H Hr. destruct (dinv_run ops [] _ _ dinv_init H) as (_ & Hn & _). rewrite app_nil_r in Hn.
  unfold dbg_notify_enter, dbg_notify_exit. destruct (d_receiver d); [|done]. rewrite Hn.
  split; destruct (stepping (reverse ops)); done.
Qed.
Print Assumptions C57_enter_exit.
Example C57_enter_exit_ex : match drun [DRegister 1; DNext AStepOver; DNext AStepInto] debugger_init with
  | Ok d => d_receiver d <> None /\ dbg_notify_enter ($"a.os") 4 d = Some (BPoint no_condition ($"a.os") 4) /\ dbg_notify_exit ($"a.os") 4 d = None
  | _ => False end.
Proof. by vm_compute. Qed.
(** Removing is defined exactly for places that have a break point, and then takes it away. *)
Theorem C57_remove_iff ops d b : drun ops debugger_init = Ok d ->
  (is_point b d = true -> exists d', remove_point b d = Ok (d', true) /\ is_point b d' = false /\
     forall x, place x <> place b -> is_point x d' = is_point x d) /\
  (is_point b d = false -> remove_point b d = UB).
Proof.
  intros H. destruct (dinv_run ops [] _ _ dinv_init H) as (Hs & _ & _). unfold remove_point.
  assert (is_point b d = match bfind b (d_points d) with Some _ => true | None => false end) as -> by done.
  destruct (bfind b (d_points d)) as [y|] eqn:E; (split; [|done]); [|done]. intros _.
  assert ((length (berase b (d_points d)) <? length (d_points d))%nat = true) as ->.
  { apply Nat.ltb_lt. clear -E. induction (d_points d) as [|z s IH]; [done|]. cbn [bfind berase] in *. destruct (bsame z b); cbn; [lia|]. apply IH in E. lia. }
  eexists. split; [reflexivity|].
  pose proof (berase_sorted b _ Hs) as Hs'. split.
    + unfold is_point. cbn [d_points set_points]. destruct (bfind b (berase b (d_points d))) eqn:E2; [|done].
      apply bfind_iff in E2 as [Hin Hp]; [|done]. apply berase_in in Hin as [_ Hin]; done.
    + intros x Hx. unfold is_point. cbn [d_points set_points]. destruct (bfind x (d_points d)) eqn:E3.
      * apply bfind_iff in E3 as [Hin Hp]; [|done]. destruct (bfind x (berase b (d_points d))) eqn:E4; [done|].
        exfalso. apply (proj1 (bfind_none x _ Hs') E4 b0); [apply berase_in; [done|]; split; [done|congruence]|done].
      * destruct (bfind x (berase b (d_points d))) eqn:E4; [|done]. apply bfind_iff in E4 as [Hin Hp]; [|done]. apply berase_in in Hin as [Hin _]; [|done].
        by apply (proj1 (bfind_none x _ Hs) E3) in Hin.
Qed.
Theorem C57_remove_absent_refuted : exists b, remove_point b debugger_init = UB.
Proof. by exists (bpoint_at ($"a.os") 1). Qed.
(** The delete command takes away the break point with the given number in the list, and no other. *)
Theorem C57_delete_by_number ops d cmd n : drun ops debugger_init = Ok d -> (Z.of_nat (S n) <= int64_max)%Z ->
  remove_command [cmd; print_int (Z.of_nat (S n))] d =
    Ok (set_points (take n (d_points d) ++ drop (S n) (d_points d)) d, bool_decide (n < length (d_points d))%nat).
Proof.
  intros H Hm. destruct (dinv_run ops [] _ _ dinv_init H) as (Hs & _ & _). unfold remove_command.
  rewrite <- (app_nil_r (print_int _)). rewrite Text_Proofs.string_to_int_print; [|unfold int64_min; lia|done].
  assert ((1 <=? Z.of_nat (S n))%Z = true) as -> by (apply Z.leb_le; lia). replace (Z.to_nat (Z.of_nat (S n) - 1)) with n by lia.
  case_bool_decide as Hn.
  2: { rewrite lookup_ge_None_2 by lia. rewrite take_ge, drop_ge by lia. rewrite app_nil_r. by destruct d. }
  destruct (lookup_lt_is_Some_2 (d_points d) n Hn) as [b Hb]. rewrite Hb. unfold remove_point.
  assert (bfind b (d_points d) = Some b) as ->. { apply bfind_iff; [done|]. split; [by eapply elem_of_list_lookup_2|done]. }
  cbn [rbind fst]. by rewrite (berase_at _ Hs n b).
Qed.
(** Storing the break points and loading them into a new debugger gives the same break points. *)
Theorem C57_store_load fullname ops d : drun ops debugger_init = Ok d -> Forall (storable fullname) (d_points d) ->
  d_points (load_points fullname (store_points d) debugger_init) = d_points d.
Proof.
  intros H Hst. destruct (dinv_run ops [] _ _ dinv_init H) as (Hs & _ & _). by apply (load_stored fullname (d_points d) []).
Qed.
(** Not true without the restriction: a file name with a blank is not read back. *)
Theorem C57_store_blank_refuted : exists b, d_points (load_points (fun f => f) (store_points (add_point b debugger_init)) debugger_init) = [].
Proof. exists (bpoint_at ($"my file.os") 3). by vm_compute. Qed.
(** One receiver at a time; only the registered one leaves. *)
Theorem C57_one_receiver d r :
  (register r d).2 = true <-> d_receiver d = None /\ d_receiver (register r d).1 = Some r.
Proof. unfold register. destruct (d_receiver d); cbn; split; try done. by intros [? _]. Qed.
Theorem C57_unregister d r : (unregister r d).2 = true <-> d_receiver d = Some r.
Proof. unfold unregister. case_bool_decide; by split. Qed.
(** Conditions compare as the operators of the language do; unequal is the opposite of equal; a side that cannot be found
    never keeps the program from stopping. *)
Theorem C57_condition F c l r : condition_evaluate F c (Some l) (Some r) =
  match c_type c with
  | CTEquals => compare_op F CEq l r | CTGreater => compare_op F CGt l r | CTGreaterEqual => compare_op F CGe l r
  | CTLess => compare_op F CLt l r | CTLessEqual => compare_op F CLe l r
  | CTUnequal => match compare_op F CEq l r with Ok b => Ok (negb b) | Throw t => Throw t | UB => UB | Fuel => Fuel end
  | CTInvalid => Ok true
  end.
Proof. unfold condition_evaluate. by destruct (c_type c). Qed.
Theorem C57_condition_missing F c l r : l = None \/ r = None -> condition_evaluate F c l r = Ok true.
Proof. unfold condition_evaluate. by destruct l, r; intros [|]. Qed.

Example C57_example : 
  let b1 := BPoint (Condition ($"i") CTLess ($"5")) ($"b.os") 3 in let b2 := bpoint_at ($"a.os") 10 in let b3 := bpoint_at ($"b.os") 3 in
  match drun [DRegister 1; DAdd b3; DAdd b2; DAdd b1] debugger_init with
  | Ok d => d_points d = [b2; b1] /\ dbg_notify ($"b.os") 3 d = Some b1 /\ Forall (storable id) (d_points d) /\
            d_points (load_points id (store_points d) debugger_init) = [b2; b1]
  | _ => False end.
Proof.
  cbv zeta. assert (forall s, negb (bool_decide (s = [])) && negb (mem (chr 32) s) = true -> plain s) as Hp by exact plain_by_bool.
  split; [reflexivity|]. split; [reflexivity|]. split; [|reflexivity].
  constructor; [|constructor; [|constructor]]; (split; [by apply Hp|]); (split; [done|]); (split; [done|]); [by left|right].
  split; [done|]. split; by apply Hp.
Qed.

Print Assumptions C57_latest_request.
Print Assumptions C57_is_break_point.
Print Assumptions C57_listed_in_order.
Print Assumptions C57_stops_iff.
Print Assumptions C57_no_receiver.
Print Assumptions C57_remove_iff.
Print Assumptions C57_remove_absent_refuted.
Print Assumptions C57_delete_by_number.
Print Assumptions C57_store_load.
Print Assumptions C57_store_blank_refuted.
Print Assumptions C57_one_receiver.
Print Assumptions C57_unregister.
Print Assumptions C57_condition.
Print Assumptions C57_condition_missing.
