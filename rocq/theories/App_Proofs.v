(** Proofs about the application server. *)
From Verif Require Import Base Base_Proofs Text_Model Args_Model App_Model App_Spec.

(** ** Requests *)
Lemma says_fun l n v w : says l n v -> says l n w -> v = w.
Proof. induction 1; inversion 1; subst; try done. auto. Qed.
Lemma silent_says l n v : silent_on l n -> ~ says l n v.
Proof. intros S H. apply S. clear S. induction H; cbn [map fst]; [by left|by right]. Qed.
Lemma says_or_silent l n : (exists v, says l n v) \/ silent_on l n.
Proof.
  induction l as [|(m, w) l IH]; [right; apply not_elem_of_nil|].
  destruct (decide (m = n)) as [->|E]; [left; exists w; constructor|].
  destruct IH as [(v & S)|S]; [left; exists v; by constructor|]. right. unfold silent_on. cbn [map fst]. intros [->|]%elem_of_cons; done.
Qed.
Lemma behind_app n s : behind n (n ++ s) = Some s.
Proof. induction n as [|a n IH]; [done|]. cbn [behind app]. by destruct (ascii_dec a a). Qed.
Lemma behind_other n m v : plain_name n -> plain_name m -> n <> m -> behind (n ++ [chr 61]) (m ++ chr 61 :: v) = None.
Proof.
  revert m. induction n as [|a n IH]; intros [|b m] Pn Pm E; cbn [behind app]; try done.
  - destruct (ascii_dec (chr 61) b) as [<-|]; [|done]. exfalso. apply Pm. by left.
  - destruct (ascii_dec a (chr 61)) as [->|]; [|done]. exfalso. apply Pn. by left.
  - destruct (ascii_dec a b) as [<-|]; [|done]. apply IH.
    + intros H. apply Pn. by right.
    + intros H. apply Pm. by right.
    + congruence.
Qed.
Lemma get_says l n : well_formed l -> plain_name n -> forall v, get_parameter n (wire l) = Some v <-> says l n v.
Proof.
  intros W P. induction W as [|(m, w) l Pm W IH]; intros v; [split; [done|inversion 1]|].
  cbn [wire map get_parameter fst snd]. change (map _ l) with (wire l). destruct (decide (m = n)) as [->|E].
  - replace (n ++ chr 61 :: w) with ((n ++ [chr 61]) ++ w) by (rewrite <- app_assoc; done). rewrite behind_app. split.
    + intros [= ->]. constructor.
    + inversion 1; subst; done.
  - rewrite behind_other by done. rewrite IH. split; [by constructor|inversion 1; subst; done].
Qed.
Lemma get_silent l n : well_formed l -> plain_name n -> get_parameter n (wire l) = None <-> silent_on l n.
Proof.
  intros W P. split.
  - intros G. destruct (says_or_silent l n) as [(v & S)|S]; [|done]. apply (get_says _ _ W P) in S. congruence.
  - intros S. destruct (get_parameter n (wire l)) as [v|] eqn:G; [|done]. apply (get_says _ _ W P) in G. by apply silent_says in G.
Qed.

(** ** The environment *)
Definition value_of (q : request) (e : env) (n : str) : option str :=
  match get_parameter n q with Some v => Some v | None => match e n with Some v => Some v | None => Some [] end end.
Lemma env_set_same k v e : env_set k v e k = Some v.
Proof. unfold env_set, str_eqb. by rewrite bool_decide_eq_true_2. Qed.
Lemma env_set_other k v e x : x <> k -> env_set k v e x = e x.
Proof. intros E. unfold env_set, str_eqb. by rewrite bool_decide_eq_false_2. Qed.
Lemma set_env_other k v o e x : x <> k -> set_env k v o e x = e x.
Proof. intros E. unfold set_env. destruct (e k), o; try done; by apply env_set_other. Qed.
Lemma set_env_over k v e : set_env k v true e k = Some v.
Proof. unfold set_env. destruct (e k); apply env_set_same. Qed.
Lemma setenv_s_same n q e : setenv_s n q e n = value_of q e n.
Proof.
  unfold setenv_s, value_of. destruct (get_parameter n q); [apply set_env_over|]. unfold set_env. destruct (e n) eqn:E; [done|apply env_set_same].
Qed.
Lemma setenv_s_other n q e x : x <> n -> setenv_s n q e x = e x.
Proof. intros E. unfold setenv_s. destruct (get_parameter n q); by apply set_env_other. Qed.

Lemma prepare_spec l q e : NoDup (map fst l) -> (forall n, (n, true) ∈ l -> get_parameter n q <> None) ->
  exists e', prepare l q e = Ok e' /\ (forall n, n ∈ map fst l -> e' n = value_of q e n) /\ (forall n, n ∉ map fst l -> e' n = e n).
Proof.
  revert e. induction l as [|(n, b) l IH]; intros e ND S.
  - exists e. split; [done|]. split; [intros n H; inversion H|done].
  - cbn [map fst] in ND. apply NoDup_cons in ND as (Ni & ND).
    assert (S' : forall n, (n, true) ∈ l -> get_parameter n q <> None) by (intros m H; apply S; by right).
    assert (K : forall e1, (e1 n = value_of q e n) -> (forall x, x <> n -> e1 x = e x) ->
      exists e', prepare l q e1 = Ok e' /\ (forall m, m ∈ n :: map fst l -> e' m = value_of q e m) /\ (forall m, m ∉ n :: map fst l -> e' m = e m)).
    { intros e1 E1 E2. destruct (IH e1 ND S') as (e' & P & A & B). exists e'. split; [done|]. split.
      - intros m [->|H]%elem_of_cons; [rewrite B by done; exact E1|]. rewrite A by done. unfold value_of. rewrite E2; [done|]. intros ->. done.
      - intros m H. rewrite B by (intros ?; apply H; by right). apply E2. intros ->. apply H. by left. }
    cbn [prepare map fst]. destruct b.
    + destruct (get_parameter n q) as [v|] eqn:G; [|destruct (S n); [by left|done]].
      apply K; [unfold value_of; rewrite G; apply set_env_over|intros x; apply set_env_other].
    + apply K; [apply setenv_s_same|intros x; apply setenv_s_other].
Qed.
Lemma prepare_missing l q e n : (n, true) ∈ l -> get_parameter n q = None -> prepare l q e = UB.
Proof.
  revert e. induction l as [|(m, b) l IH]; intros e H G; [inversion H|]. cbn [prepare]. apply elem_of_cons in H as [[= <- <-]|H]; [by rewrite G|].
  destruct b; [|by apply IH]. destruct (get_parameter m q); [by apply IH|done].
Qed.

Lemma variables_names : map fst variables = handed_over.
Proof. reflexivity. Qed.
Lemma handed_nodup : NoDup handed_over.
Proof. apply (bool_decide_unpack _). vm_compute. exact I. Qed.
Lemma handed_plain n : n ∈ handed_over -> plain_name n.
Proof.
  intros H. assert (F : Forall plain_name handed_over) by (apply (bool_decide_unpack _); vm_compute; exact I).
  rewrite Forall_forall in F. by apply F.
Qed.
Lemma strict_names n : (n, true) ∈ variables <-> n ∈ [$"REQUEST_METHOD"; $"REQUEST_URI"; $"QUERY_STRING"].
Proof.
  split.
  - intros H. unfold variables in H. repeat (apply elem_of_cons in H as [H|H]; [first [discriminate H|injection H as ->; apply (bool_decide_unpack _); vm_compute; exact I]|]). inversion H.
  - intros H. repeat (apply elem_of_cons in H as [->|H]; [apply (bool_decide_unpack _); vm_compute; exact I|]). inversion H.
Qed.

Lemma complete_get l n : well_formed l -> complete l -> n ∈ [$"PATH_INFO"; $"REQUEST_METHOD"; $"REQUEST_URI"; $"QUERY_STRING"] -> get_parameter n (wire l) <> None.
Proof.
  intros W C H. destruct (C n H) as (v & S). assert (P : plain_name n).
  { apply handed_plain. repeat (apply elem_of_cons in H as [->|H]; [apply (bool_decide_unpack _); vm_compute; exact I|]). inversion H. }
  apply (get_says _ _ W P) in S. congruence.
Qed.

(** What the program of a service sees *)
Lemma prepared l e : well_formed l -> (forall n, n ∈ [$"REQUEST_METHOD"; $"REQUEST_URI"; $"QUERY_STRING"] -> exists v, says l n v) ->
  exists e', prepare variables (wire l) e = Ok e' /\ forall n v, e' n = v <-> sees e l n v.
Proof.
  intros W C. destruct (prepare_spec variables (wire l) e) as (e' & P & A & B).
  - rewrite variables_names. exact handed_nodup.
  - intros n H. apply strict_names in H. destruct (C n H) as (v & S). assert (P : plain_name n).
    { apply handed_plain. repeat (apply elem_of_cons in H as [->|H]; [apply (bool_decide_unpack _); vm_compute; exact I|]). inversion H. }
    apply (get_says _ _ W P) in S. congruence.
  - exists e'. split; [done|]. rewrite variables_names in A, B. intros n v. split.
    + intros <-. destruct (decide (n ∈ handed_over)) as [H|H].
      * rewrite A by done. unfold value_of. destruct (get_parameter n (wire l)) as [w|] eqn:G.
        -- apply sees_request; [done|]. apply get_says in G; [done|done|by apply handed_plain].
        -- apply get_silent in G; [|done|by apply handed_plain]. destruct (e n) as [w|] eqn:E; [by apply sees_own|by apply sees_empty].
      * rewrite B by done. by apply sees_other.
    + intros S. inversion S as [n' w H Sy|n' w H Si E|n' H Si E|n' H]; subst n' v.
      * rewrite A by done. unfold value_of. apply get_says in Sy; [|done|by apply handed_plain]. by rewrite Sy.
      * rewrite A by done. unfold value_of. apply get_silent in Si; [|done|by apply handed_plain]. by rewrite Si, E.
      * rewrite A by done. unfold value_of. apply get_silent in Si; [|done|by apply handed_plain]. by rewrite Si, E.
      * by apply B.
Qed.

(** ** Services *)
Lemma find_service_some l path entry : NoDup (map fst l) -> find_service l path = Some entry <-> (path, entry) ∈ l.
Proof.
  induction l as [|(n, x) l IH]; intros ND; [split; [done|inversion 1]|]. cbn [map fst] in ND. apply NoDup_cons in ND as (Ni & ND). cbn [find_service].
  unfold str_eqb. case_bool_decide as E.
  - subst n. split; [intros [= ->]; by left|]. intros [[= ->]|H]%elem_of_cons; [done|]. exfalso. apply Ni. apply elem_of_list_fmap. by exists (path, entry).
  - rewrite (IH ND). split; [by right|]. intros [[= -> ->]|H]%elem_of_cons; done.
Qed.

Section server.
  Context {Mem Disk : Type} (program : str -> env -> Mem -> Disk -> str * ending * (env * Mem) * Disk).
  Notation child := (child program).
  Notation exec := (exec program).

  Lemma exec_process c l p d : (exec c l p d).1.2 = p.
  Proof.
    revert p d. induction l as [|(q, b) l IH]; intros p d; [done|]. cbn [App_Model.exec]. destruct b.
    - destruct (child c q p d) as ((r, p1), d1). specialize (IH p d1). destruct (exec c l p d1) as ((rs, p2), d2). exact IH.
    - specialize (IH p d). destruct (exec c l p d) as ((rs, p2), d2). exact IH.
  Qed.
  Lemma exec_app c l1 l2 p d :
    exec c (l1 ++ l2) p d = let '(r1, _, d1) := exec c l1 p d in let '(r2, p2, d2) := exec c l2 p d1 in (r1 ++ r2, p2, d2).
  Proof.
    revert d. induction l1 as [|(q, b) l1 IH]; intros d.
    - cbn [app App_Model.exec]. by destruct (exec c l2 p d) as ((r2, p2), d2).
    - cbn [app App_Model.exec]. destruct b.
      + destruct (child c q p d) as ((r, p1), d1). rewrite IH. destruct (exec c l1 p d1) as ((r1, p2), d2). by destruct (exec c l2 p d2) as ((r2, p3), d3).
      + rewrite IH. destruct (exec c l1 p d) as ((r1, p2), d2). by destruct (exec c l2 p d2) as ((r2, p3), d3).
  Qed.
End server.

(** ** The command line *)
Ltac in_cases H := repeat (apply elem_of_cons in H as [->|H]); [..|inversion H].
Lemma is_arg_false a l : a ∉ l -> is_arg a l = false.
Proof.
  intros H. unfold is_arg. apply not_true_is_false. intros E. apply existsb_exists in E as (x & I & E). unfold str_eqb in E. apply bool_decide_eq_true in E. subst x.
  apply H. by apply elem_of_list_In.
Qed.
Lemma app_skip opts ds d v rest o : app_options opts ds d v ->
  app_parameters (opts ++ rest) o = app_parameters rest (OptionsSet (o_script o) (o_libs o ++ ds) (d || o_debug o) (v || o_verbose o)).
Proof.
  intros A. revert o. induction A as [|l ds d v A IH|s l ds d v I A IH|w x l ds d v I A IH]; intros o.
  - rewrite app_nil_r. by destruct o.
  - etransitivity; [|etransitivity; [exact (IH (OptionsSet (o_script o) (o_libs o) true (o_verbose o)))|]]; [reflexivity|].
    cbn [o_script o_libs o_debug o_verbose]. by rewrite orb_true_r.
  - etransitivity; [|etransitivity; [exact (IH (OptionsSet (o_script o) (o_libs o) (o_debug o) true))|]]; [in_cases I; reflexivity|].
    cbn [o_script o_libs o_debug o_verbose]. by rewrite orb_true_r.
  - etransitivity; [|etransitivity; [exact (IH (OptionsSet (o_script o) (o_libs o ++ [x]) (o_debug o) (o_verbose o)))|]]; [in_cases I; reflexivity|].
    cbn [o_script o_libs o_debug o_verbose]. by rewrite <- app_assoc.
Qed.
Lemma script_args_eq l ps t : script_args l ps t = (ps ++ l, t ++ concat (map (cons (chr 10)) l)).
Proof.
  revert ps t. induction l as [|a l IH]; intros ps t; cbn [script_args map concat]; [by rewrite !app_nil_r|]. rewrite IH. rewrite <- !app_assoc. done.
Qed.
Lemma app_start opts ds d v named f args o : app_options opts ds d v -> app_named named f -> o_script o = [] ->
  app_parameters (opts ++ named ++ args) o = Start (OptionsSet f (o_libs o ++ ds) (d || o_debug o) (v || o_verbose o)) (Z.of_nat (S (length args))) (f ++ concat (map (cons (chr 10)) args)).
Proof.
  intros A N E. rewrite (app_skip opts ds d v (named ++ args) o A). rewrite E. inversion N as [w f' I|f' N1 N2 N3]; subst.
  - in_cases I; cbn [app]; (cbn [app_parameters]; rewrite ?script_args_eq; reflexivity).
  - cbn [app app_parameters].
    assert (Q : forall x, x ∈ app_switches \/ x ∈ app_stops -> str_eqb f x = false).
    { intros x H. unfold str_eqb. apply bool_decide_eq_false_2. intros ->. destruct H; done. }
    rewrite (Q ($"--debug")) by (left; by left). rewrite !is_arg_false.
    2,3,4,5: intros H; in_cases H; first [apply N1; apply (bool_decide_unpack _); vm_compute; exact I|apply N2; apply (bool_decide_unpack _); vm_compute; exact I|apply N3; apply (bool_decide_unpack _); vm_compute; exact I].
    rewrite (Q ($"--version")) by (right; apply (bool_decide_unpack _); vm_compute; exact I). cbn [o_script]. rewrite script_args_eq. cbn [length app]. reflexivity.
Qed.
Lemma app_stopped opts ds d v s rest o : app_options opts ds d v -> s ∈ app_stops -> app_parameters (opts ++ s :: rest) o = ShowUsage \/ app_parameters (opts ++ s :: rest) o = ShowVersion.
Proof.
  intros A I. rewrite (app_skip opts ds d v (s :: rest) o A). in_cases I; [left|left|right]; reflexivity.
Qed.
