(** What inheritance should mean, in terms of the declared types only. *)
From stdpp Require Import relations.
From Verif Require Import Base Scope_Model Proto_Model Inherit_Model.

(** [t] names [p] in its inheritance list (with the type arguments written out): at all, with extends, with implements. *)
Definition inherits (w : gmap str bp) (t p : str) : Prop :=
  exists b a, w !! t = Some b /\ a ∈ b_inh b /\ parent_name a = p.
Definition extends (w : gmap str bp) (t p : str) : Prop :=
  exists b a, w !! t = Some b /\ a ∈ b_inh b /\ a_type a = AExtends /\ parent_name a = p.
Definition implements (w : gmap str bp) (t p : str) : Prop :=
  exists b a, w !! t = Some b /\ a ∈ b_inh b /\ a_type a = AImplements /\ parent_name a = p.

(** The declared types: every ancestor is declared, too. *)
Definition all_known (w : gmap str bp) : Prop :=
  forall t b a, w !! t = Some b -> a ∈ b_inh b -> is_Some (w !! parent_name a).
(** No type is its own (indirect) ancestor. *)
Definition acyclic (w : gmap str bp) : Prop := forall t, ~ tc (inherits w) t t.
(** Every circle of inheritance is between a type and itself or between two types. *)
Definition short_cycles (w : gmap str bp) : Prop :=
  forall t p, inherits w t p -> rtc (inherits w) p t -> inherits w p t.
(** No type arguments are involved. *)
Definition plain (w : gmap str bp) : Prop := forall t b a, w !! t = Some b -> a ∈ b_inh b -> a_cons a = [].
(** Nothing is prepared yet. *)
Definition fresh (w : gmap str bp) : Prop :=
  forall t b, w !! t = Some b -> b_prepared b = false /\ b_esyms b = [] /\ b_emeths b = [].

(** What the parents of a type offer to it, parent by parent: their own symbols and methods that are not private. *)
Definition offered (b : bp) : list (str * visibility) := List.filter (fun s => vis_geb (snd s) Protected) (b_syms b).
Definition offers (w : gmap str bp) (l : list ancestor) : list (str * visibility) :=
  concat (map (fun a => match w !! parent_name a with Some p => offered p | None => [] end) l).
Definition offers_method (w : gmap str bp) (l : list ancestor) (m : bmethod) : Prop :=
  exists a p, a ∈ l /\ w !! parent_name a = Some p /\ m ∈ b_meths p /\ (m_vis (bm m) = Protected \/ m_vis (bm m) = Public).
(** No two parents of a type offer symbols of the same name. *)
Definition no_clash (w : gmap str bp) : Prop := forall t b, w !! t = Some b -> NoDup (map fst (offers w (b_inh b))).

(** The types once [base] is a symbol of every type that extends another one. *)
Definition with_base (w : gmap str bp) (b : bp) : bp :=
  match List.find is_extends (b_inh b) with
  | Some a =>
      match w !! parent_name a with
      | Some p => BP (b_name b) (b_inh b) (b_syms b ++ [($"base", b_vis p)]) (b_meths b) (b_esyms b) (b_emeths b)
                     (b_prepared b) (b_skip b) (b_vis b)
      | None => b
      end
  | None => b
  end.
Definition based (w : gmap str bp) : gmap str bp := with_base w <$> w.
(** Every type extends at most one other, uses the known kinds of inheritance, and declares no symbol called [base]. *)
Definition well_formed (w : gmap str bp) : Prop :=
  forall t b, w !! t = Some b ->
    (length (List.filter is_extends (b_inh b)) <= 1)%nat /\ (forall a, a ∈ b_inh b -> a_type a <> AUnknown) /\
    $"base" ∉ map fst (b_syms b).

(** [x] occurs before [y]. *)
Definition before {A} (x y : A) (l : list A) : Prop := exists l1 l2 l3, l = l1 ++ x :: l2 ++ y :: l3.

(** The contract between a method and one that replaces it. *)
Definition overridable (m : bmethod) : Prop := bm_layout m = LAbstract \/ bm_layout m = LVirtual.
Definition may_override (old new : bmethod) : Prop :=
  overridable old /\
  (bm_kind new = MMethod -> bm_layout new = LOverride \/ bm_layout new = LAbstract) /\
  bm_ret old = bm_ret new /\ bm_retconst old = bm_retconst new /\ bm_const old = bm_const new.
(** A call of [name] with arguments like [sig] selects [m]. *)
Definition answers (m : bmethod) (name : str) (sig : list param) : Prop :=
  m_name (bm m) = name /\ is_signature_valid (bm m) sig = true.
(** [new] collides with the earlier [old]. *)
Definition collides (old new : bmethod) : Prop := answers old (m_name (bm new)) (m_sig (bm new)).

(** A type without anything in it. *)
Definition empty_type (name : str) (inh : list ancestor) : bp := BP name inh [] [] [] [] false false Public.

(** Two ancestors that the set keeps apart: different kind, name or visibility. *)
Definition anc_key (a : ancestor) : nat * str * nat := (anc_num (a_type a), a_name a, vis_num (a_vis a)).
