(** What const means, said without the generator. *)
From Verif Require Import Base Const_Model.
Open Scope Z_scope.

(** The names a list of statements declares in its own scope. *)
Definition declared (ss : list stmt) : list str :=
  flat_map (fun s => match s with SDecl _ n _ _ => [n] | SVar n _ _ => [n] | _ => [] end) ss.

(** The value a variable shows. *)
Definition shows (h : heap) (E : env) (n : str) : option Z :=
  match lookup_all n E with Some d => Some (get_value h d) | None => None end.

(** The variables in scope are those the generator knows, in the same order. *)
Definition in_step (G : scopes) (E : env) : Prop := Forall2 (fun s t => map fst s = map fst t) G E.

(** ** Shapes of programs *)

Definition head_is (n : str) (p : list str) : bool := match p with x :: _ => same x n | [] => false end.
(** [e] names [n] at the front of a path. *)
Fixpoint mentions (n : str) (e : expr) : bool :=
  match e with
  | EInt _ => false
  | EPath p => head_is n p
  | EAdd a b => mentions n a || mentions n b
  | EAssign p a => head_is n p || mentions n a
  | EInc p _ => head_is n p
  | ECall p l => head_is n p || existsb (mentions n) l
  | ENew _ l => existsb (mentions n) l
  end.
(** [e] makes no number on the heap with [new int(..)]. *)
Fixpoint no_new_int (e : expr) : bool :=
  match e with
  | EInt _ | EPath _ | EInc _ _ => true
  | EAdd a b => no_new_int a && no_new_int b
  | EAssign _ a => no_new_int a
  | ECall _ l => forallb no_new_int l
  | ENew t l => negb (bool_decide (t = TInt)) && forallb no_new_int l
  end.
Fixpoint no_new (e : expr) : bool :=
  match e with
  | EInt _ | EPath _ | EInc _ _ => true
  | EAdd a b => no_new a && no_new b
  | EAssign _ a => no_new a
  | ECall _ l => forallb no_new l
  | ENew _ _ => false
  end.
Fixpoint all_exprs (f : expr -> bool) (s : stmt) : bool :=
  match s with
  | SExpr e => f e
  | SDecl _ _ _ None => true
  | SDecl _ _ _ (Some e) => f e
  | SVar _ _ e => f e
  | SIf e a b => f e && forallb (all_exprs f) a && forallb (all_exprs f) b
  | SWhile e b => f e && forallb (all_exprs f) b
  | SReturn None => true
  | SReturn (Some e) => f e
  end.
Fixpoint all_decls (f : option ty -> str -> bool -> option expr -> bool) (s : stmt) : bool :=
  match s with
  | SDecl t n c e => f (Some t) n c e
  | SVar n c e => f None n c (Some e)
  | SIf _ a b => forallb (all_decls f) a && forallb (all_decls f) b
  | SWhile _ b => forallb (all_decls f) b
  | _ => true
  end.

(** The right side of [var x = ..] does not name another x, and no variable is called 'this'. *)
Definition var_fresh (t : option ty) (n : str) (c : bool) (e : option expr) : bool :=
  negb (same n str_this) && match t, e with None, Some a => negb (mentions n a) | _, _ => true end.
(** Variables of a class are const. *)
Definition object_const (t : option ty) (n : str) (c : bool) (e : option expr) : bool :=
  match t with Some TInt => true | _ => c end.

(** No numbers on the heap in the whole program, and no [var] that hides what its right side names. *)
Definition sober (P : prog) : Prop :=
  forall k m, k ∈ P -> m ∈ c_methods k ->
    forallb (all_exprs no_new_int) (m_body m) = true /\ forallb (all_decls var_fresh) (m_body m) = true.
(** Const methods do not write 'this', make no objects, and hold objects only in const variables and parameters. *)
Definition reserved (P : prog) : Prop :=
  forall k m, k ∈ P -> m ∈ c_methods k -> m_const m = true ->
    m_kind m = KMethod
    /\ forallb (all_exprs no_new) (m_body m) = true
    /\ forallb (all_exprs (fun e => negb (mentions str_this e))) (m_body m) = true
    /\ forallb (all_decls object_const) (m_body m) = true
    /\ Forall (fun p => p_ty p <> TInt -> p_const p = true) (m_params m).

(** ** Types at run time *)

(** A variable of the atomic type holds its number itself; one of a class refers to nothing or to an object of the class. *)
Definition holds (h : heap) (d : hnd) (t : ty) : Prop :=
  match t with
  | TInt => h_isref d = false /\ h_ref d = None
  | TCls c => forall o, h_ref d = Some o -> exists x, h !! o = Some x /\ o_ty x = TCls c
  end.
(** Every object is of a class of the program and holds in each member what the class says. *)
Definition well_typed (P : prog) (h : heap) : Prop :=
  forall o x, h !! o = Some x ->
    exists c k, o_ty x = TCls c /\ find_class P c = Some k
      /\ forall n b, find_member k n = Some b -> exists d, assoc n (o_mem x) = Some d /\ holds h d (b_ty b).
(** The arguments of a call suit the parameters. *)
Definition suits (h : heap) (ps : list param) (vs : list hnd) : Prop := Forall2 (fun p v => holds h v (p_ty p)) ps vs.
(** The variables in scope are those the generator knows, each with a value of its type. *)
Definition env_ok (h : heap) (G : scopes) (E : env) : Prop :=
  Forall2 (Forall2 (fun q x => fst q = fst x /\ holds h (snd x) (e_ty (snd q)))) G E.
