(** Specification vocabulary for the memory properties: counting over
    histories and over the slots of a state. No model helper is used here
    except the state projections. *)
From stdpp Require Import relations.
From Verif Require Import Base Memory_Model.

(** ** Raw histories *)
(** Number of allocations / acquisitions / releases in a history. *)
Definition news (os : list mop) : nat :=
  length (filter (fun o => o = MNew) os).
Definition adds (a : addr) (os : list mop) : nat :=
  length (filter (fun o => o = MAdd a) os).
Definition rems (a : addr) (os : list mop) : nat :=
  length (filter (fun o => o = MRemove a) os).

(** [a] has been handed out / has been released back to zero in history [p]. *)
Definition allocated (a : addr) (p : list mop) : Prop :=
  (0 < a)%N /\ (N.to_nat a <= news p)%nat.
Definition released_to_zero (a : addr) (p : list mop) : Prop :=
  (0 < adds a p)%nat /\ adds a p = rems a p.

(** A history that never over-releases and never acquires a dead or unknown
    object: what a correct client does. *)
Definition legal_op (p : list mop) (o : mop) : Prop :=
  match o with
  | MNew => True
  | MAdd a => a = 0%N \/ (allocated a p /\ ~ released_to_zero a p)
  | MRemove a => a = 0%N \/ (rems a p < adds a p)%nat
  end.
Definition legal (os : list mop) : Prop :=
  forall p o s, os = p ++ o :: s -> legal_op p o.

(** ** States with variables and members *)
(** All reference slots of a state: the variables and the members of every
    object in memory. *)
Definition all_slots (m : mem) : list addr :=
  vars m ++ concat (map (fun p => fields p.2) (map_to_list (heap m))).

(** How many slots refer to [a]. *)
Definition refs_to (m : mem) (a : addr) : nat := count_occ N.eq_dec (all_slots m) a.

Definition live (m : mem) (a : addr) : Prop := is_Some (heap m !! a).

(** Destructors that do not hand out [this] and only touch existing slots:
    [n] members, [nv] variables. *)
Definition slot_ok (nv n : nat) (s : slot) : Prop :=
  match s with SField i => (i < n)%nat | SVar x => (x < nv)%nat end.
Definition src_ok (nv n : nat) (r : rsrc) : Prop :=
  match r with RNull => True | RSlot s => slot_ok nv n s end.
Definition dop_ok (nv n : nat) (o : dop) : Prop :=
  match o with DAssign d r => slot_ok nv n d /\ src_ok nv n r | DTouchThis => False end.
Definition gop_ok (nv : nat) (o : gop) : Prop :=
  match o with GNew _ n d => Forall (dop_ok nv n) d | _ => True end.

(** Number of slots a history can create. *)
Fixpoint slots_made (os : list gop) : nat :=
  match os with
  | [] => 0
  | GNew _ n _ :: os' => S n + slots_made os'
  | _ :: os' => slots_made os'
  end.

(** Member edges of the object graph. *)
Definition edge (m : mem) (a b : addr) : Prop :=
  exists e, heap m !! a = Some e /\ b <> 0%N /\ b ∈ fields e.

(** The object graph has no cycles. *)
Definition acyclic (m : mem) : Prop := forall a, ~ tc (edge m) a a.
