(** What the nodes of a behaviour tree promise, without positions. *)
From Verif Require Import Base Tree_Model.

(** The work of a node is over. *)
Definition final (s : status) : Prop := s = Success \/ s = Failure.

Section Spec.
Context {W : Type}.
Context (tk : node -> W -> res (status * node * W)).

(** A node is ticked again and again until it answers Success or Failure. *)
Inductive settles : node -> W -> status -> node -> W -> Prop :=
  | settles_now n w s n' w' : tk n w = Ok (s, n', w') -> final s -> settles n w s n' w'
  | settles_later n w s n1 w1 s' n' w' :
      tk n w = Ok (s, n1, w1) -> ~ final s -> settles n1 w1 s' n' w' -> settles n w s' n' w'.
(** Every child settles, in order and once, until one settles with something else than [go_on]. *)
Inductive in_turn (go_on : status) : list node -> W -> status -> list node -> W -> Prop :=
  | turn_end w : in_turn go_on [] w go_on [] w
  | turn_next c w c' w1 cs s cs' w' :
      settles c w go_on c' w1 -> in_turn go_on cs w1 s cs' w' -> in_turn go_on (c :: cs) w s (c' :: cs') w'
  | turn_stop c w s c' w1 cs :
      settles c w s c' w1 -> s <> go_on -> in_turn go_on (c :: cs) w s (c' :: cs) w1.
(** The children are ticked once each, from the first, until one answers something else than [go_on]. *)
Inductive once_each (go_on : status) : list node -> W -> status -> list node -> W -> Prop :=
  | once_end w : once_each go_on [] w go_on [] w
  | once_next c w c' w1 cs s cs' w' :
      tk c w = Ok (go_on, c', w1) -> once_each go_on cs w1 s cs' w' -> once_each go_on (c :: cs) w s (c' :: cs') w'
  | once_stop c w s c' w1 cs :
      tk c w = Ok (s, c', w1) -> s <> go_on -> once_each go_on (c :: cs) w s (c' :: cs) w1.
End Spec.

(** A tree as a formula over its leaves. *)
Fixpoint holds (v : nat -> bool) (n : node) : bool :=
  match n with
  | Leaf id => v id
  | Sequence _ cs | ReactiveSequence cs => forallb (holds v) cs
  | Fallback _ cs | ReactiveFallback cs => existsb (holds v) cs
  | Inverter _ c => negb (holds v c)
  | _ => false
  end.
(** Freshly built or settled, from the nodes that have a logical meaning. *)
Inductive logical : node -> Prop :=
  | logical_leaf id : logical (Leaf id)
  | logical_sequence cs : Forall logical cs -> logical (Sequence 0 cs)
  | logical_fallback cs : Forall logical cs -> logical (Fallback 0 cs)
  | logical_reactive_sequence cs : Forall logical cs -> logical (ReactiveSequence cs)
  | logical_reactive_fallback cs : Forall logical cs -> logical (ReactiveFallback cs)
  | logical_inverter st c : logical c -> logical (Inverter st c).
