(** Specification vocabulary for scopes, overloads and parameters. *)
From Verif Require Import Base Scope_Model.

(** The enclosing scopes, innermost first. *)
Fixpoint chain (s : scope) : list scope :=
  let 'Scope _ _ _ _ _ _ parent := s in
  s :: match parent with Some p => chain p | None => [] end.

(** The inheritance chain of an object, most derived first. *)
Fixpoint bases (s : scope) : list scope :=
  let 'Scope _ _ _ _ _ base _ := s in
  s :: match base with Some b => bases b | None => [] end.

Definition sym_vis (y : symbol) : visibility :=
  match y with SymDecl d => d_vis d | SymMethod m => m_vis m end.

(** What is declared with visibility [w] can be seen by someone who asks for visibility [v]. *)
Definition visible (w v : visibility) : Prop :=
  match v with
  | Designtime => True
  | Private => w = Private \/ w = Protected \/ w = Public
  | Protected => w = Protected \/ w = Public
  | Public => w = Public
  end.

(** Scope [s] itself declares [n] as [y], with at least visibility [v]: as a
    local symbol, imported symbol, local method or imported method. *)
Inductive place := Local | Imported | LocalMethod | ImportedMethod.
Definition prio (p : place) : nat :=
  match p with Local => 0 | Imported => 1 | LocalMethod => 2 | ImportedMethod => 3 end.
Inductive declares (s : scope) (n : str) (v : visibility) : place -> symbol -> Prop :=
| D_local d : ssyms s !! n = Some d -> visible (d_vis d) v -> declares s n v Local (SymDecl d)
| D_ext d : sexts s !! n = Some d -> visible (d_vis d) v -> declares s n v Imported (SymDecl d)
| D_meth m : skind s <> KSym -> m ∈ smeths s -> m_name m = n -> visible (m_vis m) v ->
    declares s n v LocalMethod (SymMethod m)
| D_emeth m : skind s <> KSym -> m ∈ semeths s -> m_name m = n -> visible (m_vis m) v ->
    declares s n v ImportedMethod (SymMethod m).

(** [y] is a declaration in [s] that no declaration of [s] of a preferred place
    shadows. *)
Definition best (s : scope) (n : str) (v : visibility) (y : symbol) : Prop :=
  exists p, declares s n v p y /\ forall q z, declares s n v q z -> (prio p <= prio q)%nat.

(** Scopes whose chain contains no objects and no base symbols: methods, blocks,
    namespaces. *)
Fixpoint plain (s : scope) : Prop :=
  let 'Scope k _ _ _ _ base parent := s in
  k <> KObj /\ base = None /\ match parent with Some p => plain p | None => True end.

(** An object whose bases are objects, all enclosed by plain scopes. *)
Fixpoint object_chain (s : scope) : Prop :=
  let 'Scope k _ _ _ _ base parent := s in
  k = KObj /\
  match parent with Some p => plain p | None => True end /\
  match base with Some b => object_chain b | None => True end.

(** Parameter matching, declaratively. *)
Definition accepts_types (sig : list param) (types : list str) : Prop :=
  (length types <= length sig)%nat /\
  (forall i p t, sig !! i = Some p -> types !! i = Some t -> p_type p = t \/ p_type p = []) /\
  (forall i p, sig !! i = Some p -> types !! i = None -> p_default p = true).

(** The completed parameter list: given arguments first, then the defaults. *)
Definition completed (sig args : list param) : list (str * str * Z) :=
  zip_with (fun s a => (p_name s, p_type s, p_value a)) sig args ++
  map (fun s => (p_name s, p_type s, p_value s)) (drop (length args) sig).

Definition same_signature (a b : method) : Prop :=
  m_name a = m_name b /\ map p_type (m_sig a) = map p_type (m_sig b).

(** What a history of declarations leaves for one name: (local, imported). *)
Definition name_state := (option decl * option decl)%type.
Definition name_step (k : kind) (n : str) (st : name_state) (o : sop) : name_state :=
  match o with
  | ODefine n' d =>
      if str_eqb n' n then
        match st, k with
        | (None, None), KSym => (Some d, None)
        | (None, e), KMet | (None, e), KObj => (Some d, e)
        | _, _ => st
        end
      else st
  | OExternal n' d =>
      if str_eqb n' n then match st with (l, None) => (l, Some d) | _ => st end else st
  | OUndefine n' => if str_eqb n' n then (None, snd st) else st
  end.

(** Strict parameter lists: fully typed, no defaults. *)
Definition strict_method (m : method) : Prop :=
  Forall (fun p => p_type p <> [] /\ p_default p = false) (m_sig m).

(** Scope [s] itself offers method [m] for a call of [n] with arguments [ps]. *)
Definition offers (s : scope) (n : str) (ps : list param) (v : visibility) (m : method) : Prop :=
  (m ∈ smeths s \/ m ∈ semeths s) /\ m_name m = n /\ visible (m_vis m) v /\
  accepts_types (m_sig m) (map p_type ps).
