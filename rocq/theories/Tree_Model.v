(** Model of libBehaviourTree: control nodes and decorators.
    Code: /repo/Projects/Library/libBehaviourTree/Control.os and Decorator.os (Slang programs, followed statement by statement).
    Actions and conditions are abstract there (Action.os:13, Condition.os:13): what a leaf does is a parameter [act], that may
    depend on and change a world of any type, answer any status and throw.
    Simplified: a node is in one place of one tree and a tick does not change the shape of the tree; what is printed and the
    Status of the control nodes are left out; a decorator has its child; an exception gives up the state of the tree.
    Not modelled: RepeaterDecorator (Decorator.os:82-96 has a path that returns nothing), Factory.os, Port.os. *)
From Verif Require Import Base.
From Coq Require Import Arith String.
Open Scope nat_scope.
Open Scope list_scope.

(** NodeStatus, Node.os:9-14. *)
Inductive status := Success | Running | Waiting | Failure.
(** The nodes with their attributes: Index of Fallback and Sequence (Control.os:65 and 131), Childs (Control.os:5),
    Status and Child of the decorators (Node.os:26, Decorator.os:5). *)
Inductive node :=
  | Leaf (id : nat)
  | Fallback (index : nat) (childs : list node)
  | ReactiveFallback (childs : list node)
  | Sequence (index : nat) (childs : list node)
  | ReactiveSequence (childs : list node)
  | SequenceStar (childs : list node)
  | ForceFailure (st : status) (child : node)
  | ForceSuccess (st : status) (child : node)
  | Inverter (st : status) (child : node).

Section Tick.
Context {W : Type}.
Context (act : nat -> W -> res (status * W)).

(** The loop of Fallback.tick, Control.os:42-62; the children before Index are passed over. The answer, the Index it leaves
    behind, the children afterwards. *)
Definition fallback_loop (tk : node -> W -> res (status * node * W)) (index : nat) :=
  fix go (pos : nat) (cs : list node) (w : W) : res (status * nat * list node * W) :=
    match cs with
    | [] => Ok (Failure, 0, [], w)
    | c :: cs' =>
        if pos <? index
        then let! r := go (S pos) cs' w in
             match r with (s, i, rest, w') => Ok (s, i, c :: rest, w') end
        else let! a := tk c w in
             match a with
             | (Running, c', w1) => Ok (Running, pos, c' :: cs', w1)
             | (Waiting, c', w1) => Ok (Waiting, pos, c' :: cs', w1)
             | (Failure, c', w1) =>
                 let! r := go (S pos) cs' w1 in
                 match r with (s, i, rest, w') => Ok (s, i, c' :: rest, w') end
             | (Success, c', w1) => Ok (Success, 0, c' :: cs', w1)
             end
    end.
(** The loop of Sequence.tick, Control.os:106-128. *)
Definition sequence_loop (tk : node -> W -> res (status * node * W)) (index : nat) :=
  fix go (pos : nat) (cs : list node) (w : W) : res (status * nat * list node * W) :=
    match cs with
    | [] => Ok (Success, 0, [], w)
    | c :: cs' =>
        if pos <? index
        then let! r := go (S pos) cs' w in
             match r with (s, i, rest, w') => Ok (s, i, c :: rest, w') end
        else let! a := tk c w in
             match a with
             | (Success, c', w1) =>
                 let! r := go (S pos) cs' w1 in
                 match r with (s, i, rest, w') => Ok (s, i, c' :: rest, w') end
             | (Running, c', w1) => Ok (Running, pos, c' :: cs', w1)
             | (Waiting, c', w1) => Ok (Waiting, pos, c' :: cs', w1)
             | (Failure, c', w1) => Ok (Failure, 0, c' :: cs', w1)
             end
    end.
(** The loop of ReactiveFallback.tick, Control.os:78-92. *)
Definition reactive_fallback_loop (tk : node -> W -> res (status * node * W)) :=
  fix go (cs : list node) (w : W) : res (status * list node * W) :=
    match cs with
    | [] => Ok (Failure, [], w)
    | c :: cs' =>
        let! a := tk c w in
        match a with
        | (Running, c', w1) => Ok (Running, c' :: cs', w1)
        | (Waiting, c', w1) => Ok (Waiting, c' :: cs', w1)
        | (Success, c', w1) => Ok (Success, c' :: cs', w1)
        | (Failure, c', w1) =>
            let! r := go cs' w1 in match r with (s, rest, w') => Ok (s, c' :: rest, w') end
        end
    end.
(** The loop of ReactiveSequence.tick, Control.os:144-158. *)
Definition reactive_sequence_loop (tk : node -> W -> res (status * node * W)) :=
  fix go (cs : list node) (w : W) : res (status * list node * W) :=
    match cs with
    | [] => Ok (Success, [], w)
    | c :: cs' =>
        let! a := tk c w in
        match a with
        | (Running, c', w1) => Ok (Running, c' :: cs', w1)
        | (Waiting, c', w1) => Ok (Waiting, c' :: cs', w1)
        | (Failure, c', w1) => Ok (Failure, c' :: cs', w1)
        | (Success, c', w1) =>
            let! r := go cs' w1 in match r with (s, rest, w') => Ok (s, c' :: rest, w') end
        end
    end.
(** tick of every node. SequenceStar.tick (Control.os:167-189) reads Index, which is private in Sequence (Control.os:131): that
    is accepted and fails at run time (C70_private_inherited_refuted), before any child is ticked.
    ForceFailureDecorator and ForceSuccessDecorator (Decorator.os:33-41 and 49-57) look at their own Status, which nothing in
    the library sets, and not at their child. InverterDecorator: Decorator.os:65-79. *)
Fixpoint tick (n : node) (w : W) : res (status * node * W) :=
  match n with
  | Leaf id => let! a := act id w in Ok (fst a, Leaf id, snd a)
  | Fallback ix cs =>
      let! r := fallback_loop tick ix 0 cs w in
      match r with (s, i, cs', w') => Ok (s, Fallback i cs', w') end
  | ReactiveFallback cs =>
      let! r := reactive_fallback_loop tick cs w in
      match r with (s, cs', w') => Ok (s, ReactiveFallback cs', w') end
  | Sequence ix cs =>
      let! r := sequence_loop tick ix 0 cs w in
      match r with (s, i, cs', w') => Ok (s, Sequence i cs', w') end
  | ReactiveSequence cs =>
      let! r := reactive_sequence_loop tick cs w in
      match r with (s, cs', w') => Ok (s, ReactiveSequence cs', w') end
  | SequenceStar _ => Throw "NullPointerException"%string
  | ForceFailure st c =>
      match st with Running | Waiting => Ok (st, n, w) | _ => Ok (Failure, n, w) end
  | ForceSuccess st c =>
      match st with Running | Waiting => Ok (st, n, w) | _ => Ok (Success, n, w) end
  | Inverter st c =>
      let! a := tick c w in
      match a with
      | (Running, c', w1) => Ok (Running, Inverter Running c', w1)
      | (Waiting, c', w1) => Ok (Waiting, Inverter Waiting c', w1)
      | (Failure, c', w1) => Ok (Success, Inverter Failure c', w1)
      | (Success, c', w1) => Ok (Failure, Inverter Success c', w1)
      end
  end.
End Tick.
