From Verif Require Import Base Base_Proofs Text_Model Text_Proofs Tok_Model Tok_Proofs TypeTable TypeSys_Model Value_Model Value_Spec.

(** ** The table *)
Lemma has_all_iff l op r e : has_all l op r e = true <-> exists t, e = (l, op, r, t).
Proof.
  destruct e as [[[l' op'] r'] t']. cbn. rewrite !andb_true_iff, !str_eqb_eq, ttype_eqb_eq.
  split; [intros [[-> ->] ->]; eauto | intros [t H]; injection H; auto].
Qed.
Lemma has_op_iff l op e : has_op l op e = true <-> exists r t, e = (l, op, r, t).
Proof.
  destruct e as [[[l' op'] r'] t']. cbn. rewrite !andb_true_iff, !str_eqb_eq, ttype_eqb_eq.
  split; [intros [-> ->]; eauto | intros (r & t & H); injection H; auto].
Qed.
Lemma has_left_iff l e : has_left l e = true <-> exists op r t, e = (l, op, r, t).
Proof.
  destruct e as [[[l' op'] r'] t']. cbn. rewrite !str_eqb_eq.
  split; [intros ->; eauto | intros (op & r & t & H); injection H; auto].
Qed.

Definition keyed (l : str) (op : ttype) (r : str) (e : entry) : Prop := exists t, e = (l, op, r, t).

Lemma existsb_all t l op r : existsb (has_all l op r) t = true <-> exists res, (l, op, r, res) ∈ t.
Proof.
  rewrite existsb_exists. split.
  - intros (e & Hin & He). apply has_all_iff in He as [x ->]. exists x. by apply elem_of_list_In.
  - intros [x Hx]. exists (l, op, r, x). split; [by apply elem_of_list_In | apply has_all_iff; eauto].
Qed.

Lemma first_result_app ds ds' l op r :
  first_result (ds ++ ds') l op r =
    match first_result ds l op r with Some t => Some t | None => first_result ds' l op r end.
Proof.
  induction ds as [|[[[l' o'] r'] t'] ds IH]; cbn [first_result app]; [done|].
  destruct (decide _); [done | apply IH].
Qed.
Lemma first_result_find t l op r :
  first_result t l op r = option_map e_result (find (has_all l op r) t).
Proof.
  induction t as [|[[[l' o'] r'] t'] t IH]; [done|].
  cbn [first_result]. cbn [find].
  destruct (has_all l op r (l', o', r', t')) eqn:E.
  - apply has_all_iff in E as [x Hx]. injection Hx as -> -> -> ->. by rewrite decide_True.
  - rewrite decide_False; [apply IH|].
    intros (-> & -> & ->). enough (has_all l op r (l, op, r, t') = true) by congruence.
    apply has_all_iff. eauto.
Qed.
Lemma first_result_Some_elem ds l op r t : first_result ds l op r = Some t -> (l, op, r, t) ∈ ds.
Proof.
  induction ds as [|[[[l' o'] r'] t'] ds IH]; [done|]. cbn [first_result].
  destruct (decide _) as [(-> & -> & ->)|_].
  - intros [= ->]. left.
  - intros H. right. auto.
Qed.
Lemma first_result_None ds l op r : first_result ds l op r = None -> forall t, (l, op, r, t) ∉ ds.
Proof.
  induction ds as [|[[[l' o'] r'] t'] ds IH]; [intros _ t H; by apply elem_of_nil in H|].
  cbn [first_result]. destruct (decide _) as [|N]; [done|].
  intros H t Hin. apply elem_of_cons in Hin as [[= -> -> -> ->]|Hin]; [tauto|by apply (IH H t)].
Qed.

Lemma define_first t l op r res l' op' r' :
  first_result (define t l op r res) l' op' r' = first_result (t ++ [(l, op, r, res)]) l' op' r'.
Proof.
  unfold define. destruct (existsb _ t) eqn:E; [|done].
  rewrite first_result_app. destruct (first_result t l' op' r') eqn:F; [done|].
  cbn [first_result]. rewrite decide_False; [done|].
  intros (-> & -> & ->). apply existsb_all in E as [x Hx].
  by apply (first_result_None _ _ _ _ F x).
Qed.
Lemma define_all_first ds : forall t l op r,
  first_result (define_all t ds) l op r = first_result (t ++ ds) l op r.
Proof.
  induction ds as [|[[[l' o'] r'] t'] ds IH]; intros t l op r; [by rewrite app_nil_r|].
  change (define_all t ((l', o', r', t') :: ds)) with (define_all (define t l' o' r' t') ds).
  rewrite IH, first_result_app, define_first, <- first_result_app.
  by rewrite <- app_assoc.
Qed.
(** The keys present in the table. *)
Definition in_left (t : list defn) (l : str) : Prop := exists op r x, (l, op, r, x) ∈ t.
Definition in_op (t : list defn) (l : str) (op : ttype) : Prop := exists r x, (l, op, r, x) ∈ t.
Lemma existsb_left t l : existsb (has_left l) t = true <-> in_left t l.
Proof.
  rewrite existsb_exists. split.
  - intros (e & Hin & He). apply has_left_iff in He as (op & r & x & ->). exists op, r, x. by apply elem_of_list_In.
  - intros (op & r & x & Hx). exists (l, op, r, x). split; [by apply elem_of_list_In | apply has_left_iff; eauto].
Qed.
Lemma existsb_op t l op : existsb (has_op l op) t = true <-> in_op t l op.
Proof.
  rewrite existsb_exists. split.
  - intros (e & Hin & He). apply has_op_iff in He as (r & x & ->). exists r, x. by apply elem_of_list_In.
  - intros (r & x & Hx). exists (l, op, r, x). split; [by apply elem_of_list_In | apply has_op_iff; eauto].
Qed.
Lemma elem_first ds l op r x : (l, op, r, x) ∈ ds -> exists y, first_result ds l op r = Some y.
Proof. intros H. destruct (first_result ds l op r) eqn:E; [eauto|]. by destruct (first_result_None _ _ _ _ E x). Qed.
Lemma define_all_left ds t l : in_left (define_all t ds) l <-> in_left (t ++ ds) l.
Proof.
  split; intros (op & r & x & H); apply elem_first in H as [y H];
    (rewrite define_all_first in H || rewrite <- define_all_first in H);
    apply first_result_Some_elem in H; by exists op, r, y.
Qed.
Lemma define_all_op ds t l op : in_op (define_all t ds) l op <-> in_op (t ++ ds) l op.
Proof.
  split; intros (r & x & H); apply elem_first in H as [y H];
    (rewrite define_all_first in H || rewrite <- define_all_first in H);
    apply first_result_Some_elem in H; by exists r, y.
Qed.

Lemma get_type_Ok t l op r x : get_type t l op r = Ok x <-> first_result t l op r = Some x.
Proof.
  unfold get_type. rewrite first_result_find. split.
  - destruct (negb (existsb (has_left l) t)); [done|]. destruct (negb (existsb (has_op l op) t)); [done|].
    destruct (find _ t); [|done]. intros H. injection H as <-. reflexivity.
  - destruct (find (has_all l op r) t) as [e|] eqn:E; [|done]. intros [= Hx].
    apply find_some in E as [Hin He]. apply has_all_iff in He as [y ->].
    apply elem_of_list_In in Hin.
    rewrite (proj2 (existsb_left t l)) by (exists op, r, y; done).
    rewrite (proj2 (existsb_op t l op)) by (exists r, y; done).
    cbn [negb]. cbn in Hx |- *. congruence.
Qed.
Lemma exists_type_iff t l op r :
  exists_type t l op r = true <-> exists x, first_result t l op r = Some x /\ x <> [].
Proof.
  unfold exists_type. rewrite first_result_find. destruct (find _ t) as [e|]; cbn [option_map].
  - case_bool_decide as H; cbn [negb].
    + split; [done|]. intros (x & Hx & N). injection Hx as <-. contradiction.
    + split; [eauto|done].
  - split; [done|]. by intros (x & Hx & _).
Qed.

(** ** Machine integers *)
Lemma in_range_iff w z : in_range w z = true <-> (- 2 ^ (w - 1) <= z < 2 ^ (w - 1))%Z.
Proof. unfold in_range. rewrite andb_true_iff, Z.leb_le, Z.ltb_lt. done. Qed.
Lemma wrap_id w z : (0 < w)%Z -> (- 2 ^ (w - 1) <= z < 2 ^ (w - 1))%Z -> wrap w z = z.
Proof.
  intros Hw H. unfold wrap. replace (2 ^ w)%Z with (2 * 2 ^ (w - 1))%Z.
  - rewrite Z.mod_small; lia.
  - rewrite <- Z.pow_succ_r by lia. f_equal. lia.
Qed.
Lemma wrap_range w z : (0 < w)%Z -> (- 2 ^ (w - 1) <= wrap w z < 2 ^ (w - 1))%Z.
Proof.
  intros Hw. unfold wrap. assert (2 ^ w = 2 * 2 ^ (w - 1))%Z as E.
  { rewrite <- Z.pow_succ_r by lia. f_equal. lia. }
  pose proof (Z.pow_pos_nonneg 2 (w - 1)).
  pose proof (Z.mod_pos_bound (z + 2 ^ (w - 1)) (2 ^ w)). lia.
Qed.

(** ** Names *)
Definition all_types : list ttype := map of_tnum (map N.of_nat (seq 0 80)).
Lemma all_types_complete op : op ∈ all_types.
Proof. apply elem_of_list_In. destruct op; vm_compute; tauto. Qed.

(** A property of every admitted built-in combination, checked on the whole table. *)
Lemma defs_forall ds (P : defn -> bool) :
  forallb P ds = true ->
  forall l op r t, get_type (define_all [] ds) l op r = Ok t -> P (l, op, r, t) = true.
Proof.
  intros HP l op r t H. apply get_type_Ok in H.
  rewrite define_all_first in H. cbn [app] in H. apply first_result_Some_elem in H.
  apply elem_of_list_In in H. rewrite forallb_forall in HP. by apply HP.
Qed.
Lemma builtin_forall (P : defn -> bool) :
  forallb P builtin_defs = true ->
  forall l op r t, get_type builtin_table l op r = Ok t -> P (l, op, r, t) = true.
Proof. exact (defs_forall builtin_defs P). Qed.
(** One answer of the built-in table, read off the list of definitions. *)
Lemma defs_get ds l op r t :
  find (has_all l op r) ds = Some (l, op, r, t) -> get_type (define_all [] ds) l op r = Ok t.
Proof.
  intros H. rewrite get_type_Ok, define_all_first. cbn [app].
  rewrite first_result_find, H. reflexivity.
Qed.
Lemma builtin_get l op r t :
  find (has_all l op r) builtin_defs = Some (l, op, r, t) -> get_type builtin_table l op r = Ok t.
Proof. exact (defs_get builtin_defs l op r t). Qed.
Lemma builtin_first l op r : first_result builtin_table l op r = first_result builtin_defs l op r.
Proof. exact (define_all_first builtin_defs [] l op r). Qed.
Ltac bt := apply builtin_get; vm_compute; reflexivity.

Definition sdec (a : str) (l : list str) : bool := existsb (str_eqb a) l.
Lemma sdec_iff a l : sdec a l = true <-> a ∈ l.
Proof.
  unfold sdec. rewrite existsb_exists. split.
  - intros (x & Hx & E). apply str_eqb_eq in E as ->. by apply elem_of_list_In.
  - intros H. exists a. split; [by apply elem_of_list_In | apply str_eqb_refl].
Qed.
Definition tdec (a : ttype) (l : list ttype) : bool := existsb (ttype_eqb a) l.
Lemma tdec_iff a l : tdec a l = true <-> a ∈ l.
Proof.
  unfold tdec. rewrite existsb_exists. split.
  - intros (x & Hx & E). apply ttype_eqb_eq in E as ->. by apply elem_of_list_In.
  - intros H. exists a. split; [by apply elem_of_list_In | by apply ttype_eqb_eq].
Qed.
