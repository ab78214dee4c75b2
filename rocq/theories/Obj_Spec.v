(** What a program with objects means, written without the code: an object is one record of members, those of its type and
    of all types it extends; a method is looked up from the type the object really has, upwards; 'base.m' starts above the
    type the calling method belongs to; names mean local variables first, then members of the own object. Null remembers the
    type of the variable it was read from. *)
From Verif Require Import Base Obj_Model.

Inductive bval := BInt (z : Z) | BBool (b : bool) | BObj (a : nat) | BNull (t : str) | BVoid.
Record bobj := BObject { o_class : str; o_member : str -> option bval }.
Definition bheap := list bobj.
Definition benv := list (str -> option bval).
Record bstate := BState { b_heap : bheap; b_out : list Z }.
(** The method that runs: the object it was called on and the class that declares it. *)
Definition self := option (nat * str).

Definition upd (m : str -> option bval) (x : str) (v : bval) : str -> option bval := fun y => if bool_decide (y = x) then Some v else m y.
Fixpoint local (E : benv) (x : str) : option bval := match E with [] => None | m :: E => match m x with Some v => Some v | None => local E x end end.
Fixpoint set_local (E : benv) (x : str) (v : bval) : benv :=
  match E with [] => [] | m :: E => match m x with Some _ => upd m x v :: E | None => m :: set_local E x v end end.
Definition start (t : ty) : bval := match t with TInt => BInt 0 | TBool => BBool false | TObj c => BNull c end.
(** A parameter gets the value of its argument; null gets its type. *)
Definition given (t : ty) (v : bval) : bval := match v, t with BNull _, TObj c => BNull c | v, _ => v end.
Fixpoint params (ps : list (ty * str)) (vs : list bval) : str -> option bval :=
  match ps, vs with p :: ps, v :: vs => upd (params ps vs) (snd p) (given (fst p) v) | _, _ => fun _ => None end.

Section Rules.
(** Whether a variable can only take objects of the type of what it holds, see [takes]. *)
Variable picky : bool.
Variable P : prog.

Definition is_class (c : str) (k : cls) : Prop := In k (p_classes P) /\ c_name k = c.
(** [c] is [d] or extends it, directly or not. *)
Inductive isa : str -> str -> Prop :=
| isa_refl c : isa c c
| isa_up c k b d : is_class c k -> c_base k = Some b -> isa b d -> isa c d.
(** A class that declares no constructor has one that does nothing. *)
Definition has_method (k : cls) (q : meth) : Prop :=
  In q (c_methods k) \/
  ((forall r, In r (c_methods k) -> m_name r <> w_new) /\ q = Meth Public None w_new [] []).
Definition fits (m : str) (i : nat) (q : meth) : Prop := m_name q = m /\ length (m_params q) = i.
(** The method [q] of class [d] is the nearest one with this name and number of arguments, from [c] upwards. *)
Inductive picks : str -> str -> nat -> str -> meth -> Prop :=
| picks_own c k m i q : is_class c k -> has_method k q -> fits m i q -> picks c m i c q
| picks_up c k m i b d q :
    is_class c k -> (forall r, has_method k r -> ~ fits m i r) -> c_base k = Some b -> picks b m i d q -> picks c m i d q.
(** The members of a new object of class [c]. *)
Definition with_fields (k : cls) (M : str -> option bval) : str -> option bval :=
  fold_right (fun f M => upd M (f_name f) (start (f_ty f))) M (c_fields k).
Inductive fresh : str -> (str -> option bval) -> Prop :=
| fresh_top c k : is_class c k -> c_base k = None -> fresh c (with_fields k (fun _ => None))
| fresh_derived c k b M : is_class c k -> c_base k = Some b -> fresh b M -> fresh c (with_fields k M).

(** A member the class [d] has, declared there or above. *)
Definition field_of (d n : str) : Prop := exists c k f, isa d c /\ is_class c k /\ In f (c_fields k) /\ f_name f = n.
(** What the first name of a chain stands for, and the names behind it. *)
Inductive first (s : self) (E : benv) (H : bheap) : str -> bval -> Prop :=
| first_local x v : local E x = Some v -> first s E H x v
| first_member x a d o v : local E x = None -> s = Some (a, d) -> field_of d x -> H !! a = Some o -> o_member o x = Some v -> first s E H x v
| first_this a d : local E w_this = None -> s = Some (a, d) -> first s E H w_this (BObj a).
Inductive follow (H : bheap) : bval -> list str -> bval -> Prop :=
| follow_end v : follow H v [] v
| follow_name a o n w r v : H !! a = Some o -> o_member o n = Some w -> follow H w r v -> follow H (BObj a) (n :: r) v.

(** The places of assignments. *)
Inductive place := LocalVar (x : str) | Member (a : nat) (n : str).
Inductive located (s : self) (E : benv) (H : bheap) : list str -> place -> Prop :=
| located_local x v : local E x = Some v -> located s E H [x] (LocalVar x)
| located_own x a d o v :
    local E x = None -> s = Some (a, d) -> field_of d x -> H !! a = Some o -> o_member o x = Some v -> located s E H [x] (Member a x)
| located_member x w r n a o v :
    first s E H x w -> follow H w r (BObj a) -> H !! a = Some o -> o_member o n = Some v -> located s E H (x :: r ++ [n]) (Member a n).
(** The type of what a variable holds. *)
Inductive holds (H : bheap) : bval -> str -> Prop :=
| holds_null t : holds H (BNull t) t
| holds_obj a o : H !! a = Some o -> holds H (BObj a) (o_class o).
(** [takes H old v w]: given the value [v], a variable that held [old] holds [w]. Numbers become what the variable is; an
    object must, if [picky], be of the type of what the variable held, or below. *)
Inductive takes (H : bheap) : bval -> bval -> bval -> Prop :=
| takes_int i j : takes H (BInt i) (BInt j) (BInt j)
| takes_int_bool i b : takes H (BInt i) (BBool b) (BInt (if b then 1 else 0))
| takes_bool a b : takes H (BBool a) (BBool b) (BBool b)
| takes_bool_int a j : takes H (BBool a) (BInt j) (BBool (negb (j =? 0)%Z))
| takes_null old t u : holds H old t -> takes H old (BNull u) (BNull u)
| takes_obj old t a o :
    holds H old t -> H !! a = Some o -> (picky = true -> isa (o_class o) t \/ t = w_object) -> takes H old (BObj a) (BObj a).
Inductive stored : place -> bval -> benv -> bheap -> benv -> bheap -> Prop :=
| stored_local x u v w E H : local E x = Some u -> takes H u v w -> stored (LocalVar x) v E H (set_local E x w) H
| stored_member a n o u v w E H :
    H !! a = Some o -> o_member o n = Some u -> takes H u v w ->
    stored (Member a n) v E H E (<[a := BObject (o_class o) (upd (o_member o) n w)]> H).

Definition true_value (v : bval) : option bool :=
  match v with BBool b => Some b | BInt z => Some (negb (z =? 0)%Z) | BObj _ => Some true | BNull _ => Some false | BVoid => None end.
(** How a statement ends: it is done, break, continue, return, an exception. *)
Inductive bflow := BGo | BBrk | BCont | BRet (v : bval) | BThr (v : bval).
(** The parts of an expression that are evaluated before anything is called or followed, in this order *)
Definition parts (e : expr) : list expr :=
  match e with
  | XInt _ | XNull | XPath _ => []
  | XCall _ l | XNew _ l => l
  | XAdd a b | XLess a b => [a; b]
  | XDot a _ | XDotCall a _ _ | XCast _ a => [a]
  end.
(** The expression of a statement that comes first *)
Inductive asks : stmt -> expr -> Prop :=
| asks_print e : asks (SPrint e) e
| asks_expr e : asks (SExpr e) e
| asks_return e : asks (SReturn (Some e)) e
| asks_throw e : asks (SThrow e) e
| asks_if e x y : asks (SIf e x y) e
| asks_while e l : asks (SWhile e l) e.
(** A catch part for a class takes the objects of this class and of those below. *)
Definition taken (c t : str) : Prop := isa c t \/ t = w_object.

(** The class [d] or one it extends declares a method with this name. *)
Definition knows (d m : str) : Prop := exists c k q, isa d c /\ is_class c k /\ has_method k q /\ m_name q = m.
(** The method a call means: [target s E H p i t q], where [t] is the object and the declaring class, or none for a function. *)
Inductive target_of (s : self) (E : benv) (H : bheap) : list str -> nat -> self -> meth -> Prop :=
| target_own a d m i o c q :
    s = Some (a, d) -> knows d m -> H !! a = Some o -> picks (o_class o) m i c q -> target_of s E H [m] i (Some (a, c)) q
| target_this a d m i o c q :
    s = Some (a, d) -> H !! a = Some o -> picks (o_class o) m i c q -> target_of s E H [w_this; m] i (Some (a, c)) q
| target_base a d k b m i c q :
    s = Some (a, d) -> is_class d k -> c_base k = Some b -> picks b m i c q -> target_of s E H [w_base; m] i (Some (a, c)) q
| target_function m i q :
    (forall a d, s = Some (a, d) -> ~ knows d m) -> In q (p_funcs P) -> fits m i q -> target_of s E H [m] i None q
| target_object x w r a o m i c q :
    x <> w_this \/ r <> [] ->
    first s E H x w -> follow H w r (BObj a) -> H !! a = Some o -> picks (o_class o) m i c q ->
    target_of s E H (x :: r ++ [m]) i (Some (a, c)) q.

Inductive ev : self -> benv -> expr -> bstate -> bval -> bstate -> Prop :=
| ev_int s E z B : ev s E (XInt z) B (BInt z) B
| ev_null s E B : ev s E XNull B (BNull w_object) B
| ev_path s E x r w v B : first s E (b_heap B) x w -> follow (b_heap B) w r v -> ev s E (XPath (x :: r)) B v B
| ev_call s E p args vs t q v B B1 B2 :
    evs s E args B vs B1 -> target_of s E (b_heap B1) p (length args) t q -> calls t q vs B1 v B2 -> ev s E (XCall p args) B v B2
| ev_new s E c k args vs q M B B1 B2 :
    evs s E args B vs B1 ->
    is_class c k -> has_method k q -> fits w_new (length args) q -> m_vis q <> Private -> fresh c M ->
    does (Some (length (b_heap B1), c)) q vs (BState (b_heap B1 ++ [BObject c M]) (b_out B1)) BGo B2 ->
    ev s E (XNew c args) B (BObj (length (b_heap B1))) B2
| ev_add s E a b x y B B1 B2 :
    ev s E a B (BInt x) B1 -> ev s E b B1 (BInt y) B2 -> (-2147483648 <= x + y <= 2147483647)%Z -> ev s E (XAdd a b) B (BInt (x + y)) B2
| ev_less s E a b x y B B1 B2 :
    ev s E a B (BInt x) B1 -> ev s E b B1 (BInt y) B2 -> ev s E (XLess a b) B (BBool (bool_decide (x < y)%Z)) B2
| ev_dot s E a p u v B B1 : p <> [] -> ev s E a B u B1 -> follow (b_heap B1) u p v -> ev s E (XDot a p) B v B1
| ev_dotcall s E a r m args u vs b o c q v B B1 B2 B3 :
    ev s E a B u B1 -> evs s E args B1 vs B2 ->
    follow (b_heap B2) u r (BObj b) -> b_heap B2 !! b = Some o -> picks (o_class o) m (length args) c q ->
    calls (Some (b, c)) q vs B2 v B3 -> ev s E (XDotCall a (r ++ [m]) args) B v B3
| ev_cast s E c a v B B1 : ev s E a B v B1 -> ev s E (XCast c a) B v B1
(** Expressions that throw: the exception of a part, or of the method that is called *)
with evx : self -> benv -> expr -> bstate -> bval -> bstate -> Prop :=
| evx_part s E e v B B1 : evsx s E (parts e) B v B1 -> evx s E e B v B1
| evx_call s E p args vs t q v B B1 B2 :
    evs s E args B vs B1 -> target_of s E (b_heap B1) p (length args) t q -> does t q vs B1 (BThr v) B2 -> evx s E (XCall p args) B v B2
with evsx : self -> benv -> list expr -> bstate -> bval -> bstate -> Prop :=
| evsx_here s E e l v B B1 : evx s E e B v B1 -> evsx s E (e :: l) B v B1
| evsx_later s E e l u v B B1 B2 : ev s E e B u B1 -> evsx s E l B1 v B2 -> evsx s E (e :: l) B v B2
with evs : self -> benv -> list expr -> bstate -> list bval -> bstate -> Prop :=
| evs_nil s E B : evs s E [] B [] B
| evs_cons s E e l v vs B B1 B2 : ev s E e B v B1 -> evs s E l B1 vs B2 -> evs s E (e :: l) B (v :: vs) B2
(** The body of a method with its arguments. *)
with does : self -> meth -> list bval -> bstate -> bflow -> bstate -> Prop :=
| does_body s q vs E f B B1 : sts s [params (m_params q) vs] (m_body q) B f E B1 -> does s q vs B f B1
with calls : self -> meth -> list bval -> bstate -> bval -> bstate -> Prop :=
| calls_value s q vs v B B1 : does s q vs B (BRet v) B1 -> calls s q vs B v B1
| calls_void s q vs B B1 : m_ret q = None -> does s q vs B BGo B1 -> calls s q vs B BVoid B1
with sts : self -> benv -> list stmt -> bstate -> bflow -> benv -> bstate -> Prop :=
| sts_nil s E B : sts s E [] B BGo E B
| sts_go s E E1 E2 x l f B B1 B2 : stx s E x B BGo E1 B1 -> sts s E1 l B1 f E2 B2 -> sts s E (x :: l) B f E2 B2
| sts_leave s E E1 x l f B B1 : f <> BGo -> stx s E x B f E1 B1 -> sts s E (x :: l) B f E1 B1
with stx : self -> benv -> stmt -> bstate -> bflow -> benv -> bstate -> Prop :=
| stx_decl s m E t x e v w B B1 :
    m x = None -> ev s (upd m x (start t) :: E) e B v B1 -> takes (b_heap B1) (start t) v w ->
    stx s (m :: E) (SDecl t x e) B BGo (upd m x w :: E) B1
| stx_assign s E E1 p e pl v H B B1 :
    located s E (b_heap B) p pl -> ev s E e B v B1 -> stored pl v E (b_heap B1) E1 H ->
    stx s E (SAssign p e) B BGo E1 (BState H (b_out B1))
| stx_print s E e z B B1 : ev s E e B (BInt z) B1 -> stx s E (SPrint e) B BGo E (BState (b_heap B1) (b_out B1 ++ [z]))
| stx_expr s E e v B B1 : ev s E e B v B1 -> stx s E (SExpr e) B BGo E B1
| stx_return s E e v B B1 : ev s E e B v B1 -> stx s E (SReturn (Some e)) B (BRet v) E B1
| stx_leave s E B : stx s E (SReturn None) B (BRet BVoid) E B
| stx_if s E E1 e x y v b f B B1 B2 :
    ev s E e B v B1 -> true_value v = Some b -> stx s E (if b then x else y) B1 f E1 B2 -> stx s E (SIf e x y) B f E1 B2
| stx_block s E m E1 l f B B1 :
    sts s ((fun _ => None) :: E) l B f (m :: E1) B1 -> stx s E (SBlock l) B f E1 B1
| stx_while_end s E e l v B B1 : ev s E e B v B1 -> true_value v = Some false -> stx s E (SWhile e l) B BGo E B1
| stx_while_turn s E E1 E2 e l v f g B B1 B2 B3 :
    ev s E e B v B1 -> true_value v = Some true -> stx s E (SBlock l) B1 f E1 B2 -> f = BGo \/ f = BCont ->
    stx s E1 (SWhile e l) B2 g E2 B3 -> stx s E (SWhile e l) B g E2 B3
| stx_while_break s E E1 e l v B B1 B2 :
    ev s E e B v B1 -> true_value v = Some true -> stx s E (SBlock l) B1 BBrk E1 B2 -> stx s E (SWhile e l) B BGo E1 B2
| stx_while_return s E E1 e l v r B B1 B2 :
    ev s E e B v B1 -> true_value v = Some true -> stx s E (SBlock l) B1 (BRet r) E1 B2 -> stx s E (SWhile e l) B (BRet r) E1 B2
| stx_while_throw s E E1 e l v r B B1 B2 :
    ev s E e B v B1 -> true_value v = Some true -> stx s E (SBlock l) B1 (BThr r) E1 B2 -> stx s E (SWhile e l) B (BThr r) E1 B2
| stx_throw s E e a B B1 : ev s E e B (BObj a) B1 -> stx s E (SThrow e) B (BThr (BObj a)) E B1
(** An exception in an expression of a statement *)
| stx_asks s E x e v B B1 : asks x e -> evx s E e B v B1 -> stx s E x B (BThr v) E B1
| stx_decl_throw s m E t x e v B B1 :
    m x = None -> evx s (upd m x (start t) :: E) e B v B1 -> stx s (m :: E) (SDecl t x e) B (BThr v) (upd m x (start t) :: E) B1
| stx_assign_throw s E p e pl v B B1 :
    located s E (b_heap B) p pl -> evx s E e B v B1 -> stx s E (SAssign p e) B (BThr v) E B1
(** Without an exception the catch parts do not matter; an exception goes to the first part whose class it has, or on. *)
| stx_try s E E1 a ks f B B1 : (forall v, f <> BThr v) -> stx s E a B f E1 B1 -> stx s E (STry a ks) B f E1 B1
| stx_try_caught s E E1 E2 m a k1 c x b k2 i o f B B1 B2 :
    stx s E a B (BThr (BObj i)) E1 B1 -> b_heap B1 !! i = Some o ->
    Forall (fun k => ~ taken (o_class o) (fst (fst k))) k1 -> taken (o_class o) c ->
    stx s (upd (fun _ => None) x (BObj i) :: E1) b B1 f (m :: E2) B2 ->
    stx s E (STry a (k1 ++ (c, x, b) :: k2)) B f E2 B2
| stx_try_on s E E1 a ks i o B B1 :
    stx s E a B (BThr (BObj i)) E1 B1 -> b_heap B1 !! i = Some o -> Forall (fun k => ~ taken (o_class o) (fst (fst k))) ks ->
    stx s E (STry a ks) B (BThr (BObj i)) E1 B1
| stx_break s E B : stx s E SBreak B BBrk E B
| stx_continue s E B : stx s E SContinue B BCont E B
| stx_skip s E B : stx s E SSkip B BGo E B.

(** The program runs its function main. *)
Definition means (out : list Z) : Prop :=
  exists q v B, In q (p_funcs P) /\ fits ($"main") 0 q /\ calls None q [] (BState [] []) v B /\ b_out B = out.
(** It ends with an exception nobody takes. *)
Definition means_throw : Prop :=
  exists q v B, In q (p_funcs P) /\ fits ($"main") 0 q /\ does None q [] (BState [] []) (BThr v) B.

(** ** The programs the code treats as the rules say. Every condition is needed; see the refuted theorems. *)
Definition member_of (d n : str) : Prop :=
  field_of d n \/ knows d n.
(** Local variables and parameters are not called like members of the own object. *)
Definition fine_local (D : option str) (x : str) : Prop :=
  x <> w_this /\ x <> w_base /\ forall d, D = Some d -> ~ member_of d x.
(** A private member is used in its own class only, on the own object. *)
Definition fine_own (D : option str) (n : str) : Prop :=
  forall d c k f, D = Some d -> isa d c -> is_class c k -> In f (c_fields k) -> f_name f = n -> f_vis f = Private -> c = d.
Definition fine_name (n : str) : Prop := forall k f, In k (p_classes P) -> In f (c_fields k) -> f_name f = n -> f_vis f <> Private.
(** 'this' is used as a value only in classes nobody extends. *)
Definition fine_this (D : option str) : Prop := forall d k, D = Some d -> In k (p_classes P) -> c_base k <> Some d.
Definition fine_path (D : option str) (p : list str) : Prop :=
  match p with
  | [] => True
  | x :: r =>
      if bool_decide (x = w_this) then match r with [] => fine_this D | n :: r => fine_own D n /\ Forall fine_name r end
      else fine_own D x /\ Forall fine_name r
  end.
(** A chain that can be followed in the declared types. *)
Inductive known_chain : str -> list str -> Prop :=
| known_last c n : member_of c n -> known_chain c [n]
| known_more c n e k f d r :
    isa c e -> is_class e k -> In f (c_fields k) -> f_name f = n -> f_ty f = TObj d -> known_chain d r -> known_chain c (n :: r).
(** A chain from a member of the own object can be followed; 'base.m' names a method that may be used below its class. *)
Definition fine_known (D : option str) (p : list str) : Prop :=
  forall d x n r, D = Some d -> p = x :: n :: r ->
    (member_of d x -> known_chain d p) /\
    (x = w_base -> forall k b, is_class d k -> c_base k = Some b ->
       r = [] /\ exists c kc q, isa b c /\ is_class c kc /\ has_method kc q /\ m_name q = n /\ m_vis q <> Private).
(** A method called on the own object is not declared again in a class below. *)
Definition fine_call (D : option str) (m : str) (i : nat) : Prop :=
  forall d c k q, D = Some d -> isa c d -> c <> d -> is_class c k -> has_method k q -> ~ fits m i q.
Definition fine_target (D : option str) (p : list str) (i : nat) : Prop :=
  match p with
  | [m] => fine_call D m i
  | [x; m] => if bool_decide (x = w_this) then fine_call D m i else if bool_decide (x = w_base) then True else fine_path D [x]
  | _ => fine_path D (removelast p)
  end.
(** The arguments of a call behind an expression mention no variables. *)
Fixpoint closed (e : expr) : bool :=
  match e with
  | XInt _ | XNull => true
  | XPath _ | XCall _ _ => false
  | XNew _ l => forallb closed l
  | XAdd a b | XLess a b => closed a && closed b
  | XDot a _ => closed a
  | XDotCall a _ l => closed a && forallb closed l
  | XCast _ a => closed a
  end.
Fixpoint fine_expr (D : option str) (e : expr) : Prop :=
  match e with
  | XInt _ | XNull => True
  | XPath p => fine_path D p /\ fine_known D p
  | XCall p l => (fine_target D p (length l) /\ fine_known D p) /\ fold_right (fun a => and (fine_expr D a)) True l
  | XNew _ l => fold_right (fun a => and (fine_expr D a)) True l
  | XAdd a b | XLess a b => fine_expr D a /\ fine_expr D b
  | XDot a p => fine_expr D a /\ Forall fine_name p
  | XDotCall a p l => fine_expr D a /\ Forall fine_name (removelast p) /\ forallb closed l = true /\ fold_right (fun a => and (fine_expr D a)) True l
  | XCast _ a => fine_expr D a
  end.
Fixpoint fine_stmt (D : option str) (s : stmt) : Prop :=
  match s with
  | SDecl _ x e => fine_local D x /\ fine_expr D e
  | SAssign p e => (fine_path D p /\ fine_known D p) /\ p <> [w_this] /\ fine_expr D e
  | SPrint e | SExpr e | SReturn (Some e) | SThrow e => fine_expr D e
  | SReturn None => True
  | SIf e a b => fine_expr D e /\ fine_stmt D a /\ fine_stmt D b
  | SBlock l => fold_right (fun a => and (fine_stmt D a)) True l
  | SWhile e l => fine_expr D e /\ fold_right (fun a => and (fine_stmt D a)) True l
  | STry a ks => fine_stmt D a /\ fold_right (fun k => and (fine_local D (snd (fst k)) /\ fine_stmt D (snd k))) True ks
  | SBreak | SContinue | SSkip => True
  end.
Definition fine_method (D : option str) (q : meth) : Prop :=
  Forall (fine_local D) (map snd (m_params q)) /\ Forall (fine_stmt D) (m_body q).
Definition signature (q : meth) : str * nat := (m_name q, length (m_params q)).
(** The declarations do not clash. *)
Definition sound_class (k : cls) : Prop :=
  NoDup (map f_name (c_fields k)) /\ NoDup (map signature (c_methods k)) /\
  (forall f, In f (c_fields k) -> f_name f <> w_this /\ f_name f <> w_base) /\
  (forall q, In q (c_methods k) -> m_name q <> w_this /\ m_name q <> w_base) /\
  (* no member has the name of another one further up, or of a method of the object *)
  (forall c d k1 f, isa c (c_name k) -> isa c d -> is_class d k1 -> In f (c_fields k) ->
     (forall g, In g (c_fields k1) -> f_name g = f_name f -> d = c_name k) /\
     (forall q, has_method k1 q -> m_name q <> f_name f)).
Definition sound : Prop :=
  NoDup (map c_name (p_classes P)) /\ (forall k, In k (p_classes P) -> c_name k <> w_object) /\
  (* methods with the same name and number of parameters, in types above one another, have parameters of the same types *)
  (forall k1 k2 q r, In k1 (p_classes P) -> In k2 (p_classes P) -> isa (c_name k1) (c_name k2) -> In q (c_methods k1) -> In r (c_methods k2) ->
     signature q = signature r -> map fst (m_params q) = map fst (m_params r)) /\
  NoDup (map signature (p_funcs P)) /\
  (* the types above a class are declared and do not form a circle *)
  (forall k, In k (p_classes P) -> exists M, fresh (c_name k) M) /\
  Forall sound_class (p_classes P) /\
  (forall q, In q (p_funcs P) -> m_name q <> w_this /\ m_name q <> w_base).
Definition fine : Prop :=
  sound /\ (forall k q, In k (p_classes P) -> In q (c_methods k) -> fine_method (Some (c_name k)) q) /\ Forall (fine_method None) (p_funcs P).

(** ** Which programs are accepted: names are declared, and visible where they are used, and the types fit. *)
(** Asked for: chains from members of the own object can be followed, locals are not called like members. *)
Fixpoint simple_expr (D : option str) (e : expr) : Prop :=
  match e with
  | XInt _ | XNull => True
  | XPath p => fine_known D p
  | XCall p l => fine_known D p /\ fold_right (fun a => and (simple_expr D a)) True l
  | XNew _ l => fold_right (fun a => and (simple_expr D a)) True l
  | XAdd a b | XLess a b => simple_expr D a /\ simple_expr D b
  | XDot a _ => simple_expr D a
  | XDotCall a _ l => simple_expr D a /\ fold_right (fun a => and (simple_expr D a)) True l
  | XCast _ a => simple_expr D a
  end.
Fixpoint simple_stmt (D : option str) (s : stmt) : Prop :=
  match s with
  | SDecl _ x e => fine_local D x /\ simple_expr D e
  | SAssign p e => fine_known D p /\ simple_expr D e
  | SPrint e | SExpr e | SReturn (Some e) | SThrow e => simple_expr D e
  | SReturn None => True
  | SIf e a b => simple_expr D e /\ simple_stmt D a /\ simple_stmt D b
  | SBlock l => fold_right (fun a => and (simple_stmt D a)) True l
  | SWhile e l => simple_expr D e /\ fold_right (fun a => and (simple_stmt D a)) True l
  | STry a ks => simple_stmt D a /\ fold_right (fun k => and (fine_local D (snd (fst k)) /\ simple_stmt D (snd k))) True ks
  | SBreak | SContinue | SSkip => True
  end.
Definition simple_method (D : option str) (q : meth) : Prop :=
  Forall (fine_local D) (map snd (m_params q)) /\ Forall (simple_stmt D) (m_body q).
Definition simple : Prop :=
  sound /\ (forall k q, In k (p_classes P) -> In q (c_methods k) -> simple_method (Some (c_name k)) q) /\ Forall (simple_method None) (p_funcs P).
(** The own class, a class below, anybody else. *)
Inductive level := Own | Heir | Other.
Definition may (l : level) (v : vis) : Prop := match l with Own => True | Heir => v <> Private | Other => v = Public end.
Inductive named := NValue (t : ty) | NMethod (c : option str) (m : str).
Inductive typed_member (l : level) : str -> str -> named -> Prop :=
| tm_field c e k f : isa c e -> is_class e k -> In f (c_fields k) -> may l (f_vis f) -> typed_member l c (f_name f) (NValue (f_ty f))
| tm_method c e k q : isa c e -> is_class e k -> has_method k q -> may l (m_vis q) -> typed_member l c (m_name q) (NMethod (Some c) (m_name q))
| tm_base c k b : is_class c k -> c_base k = Some b -> typed_member l c w_base (NValue (TObj b)).
(** A chain in class [c], in a method of class [D]. *)
Inductive chained (D : option str) : level -> str -> list str -> named -> Prop :=
| chained_last l c n r : typed_member l c n r -> chained D l c [n] r
| chained_on l c n d p r :
    typed_member l c n (NValue (TObj d)) ->
    chained D (if bool_decide (n = w_base) then Heir else if bool_decide (D = Some d) then Own else l) d p r -> chained D l c (n :: p) r.
Definition tenv := list (str -> option ty).
Fixpoint tlook (G : tenv) (x : str) : option ty := match G with [] => None | m :: G => match m x with Some t => Some t | None => tlook G x end end.
Definition tupd (m : str -> option ty) (x : str) (t : ty) : str -> option ty := fun y => if bool_decide (y = x) then Some t else m y.
Inductive stands (D : option str) (G : tenv) : list str -> named -> Prop :=
| stands_own d p r : D = Some d -> chained D Own d p r -> stands D G p r
| stands_this d : D = Some d -> stands D G [w_this] (NValue (TObj d))
| stands_this_chain d p r : D = Some d -> chained D Own d p r -> stands D G (w_this :: p) r
| stands_local x t : tlook G x = Some t -> stands D G [x] (NValue t)
| stands_local_chain x c p r : tlook G x = Some (TObj c) -> chained D (if bool_decide (D = Some c) then Own else Other) c p r -> stands D G (x :: p) r
| stands_function m q :
    tlook G m = None -> (forall d, D = Some d -> ~ member_of d m) -> In q (p_funcs P) -> m_name q = m -> stands D G [m] (NMethod None m).
(** The type of a call of a method with arguments of these types; none for void. *)
Inductive gives : named -> list (option ty) -> option ty -> Prop :=
| gives_method c m us e q : picks c m (length us) e q -> us = map Some (map fst (m_params q)) -> gives (NMethod (Some c) m) us (m_ret q)
| gives_function m us q : In q (p_funcs P) -> fits m (length us) q -> us = map Some (map fst (m_params q)) -> gives (NMethod None m) us (m_ret q).
Definition known_type (t : ty) : Prop := forall c, t = TObj c -> c = w_object \/ exists k, is_class c k.
Definition number (t : ty) : Prop := t = TInt \/ t = TBool.
(** What can be assigned to a variable, and what it can be initialised with. *)
Inductive suits : ty -> option ty -> Prop :=
| suits_number t u : number t -> number u -> suits t (Some u)
| suits_same c : suits (TObj c) (Some (TObj c)).
Inductive inits : ty -> option ty -> Prop :=
| inits_same t u : suits t u -> inits t u
| inits_below c k b : is_class c k -> c_base k = Some b -> inits (TObj b) (Some (TObj c))
| inits_top c k : is_class c k -> c_base k = None -> inits (TObj w_object) (Some (TObj c)).
Inductive wt (D : option str) (G : tenv) : expr -> option ty -> Prop :=
| wt_int z : wt D G (XInt z) (Some TInt)
| wt_null : wt D G XNull (Some (TObj w_object))
| wt_path p t : stands D G p (NValue t) -> wt D G (XPath p) (Some t)
| wt_call p args r us t : stands D G p r -> wts D G args us -> gives r us t -> wt D G (XCall p args) t
| wt_new c args us e q :
    wts D G args us -> picks c w_new (length us) e q -> us = map Some (map fst (m_params q)) -> wt D G (XNew c args) (Some (TObj c))
| wt_add a b : wt D G a (Some TInt) -> wt D G b (Some TInt) -> wt D G (XAdd a b) (Some TInt)
| wt_less a b : wt D G a (Some TInt) -> wt D G b (Some TInt) -> wt D G (XLess a b) (Some TBool)
| wt_dot a c p t : wt D G a (Some (TObj c)) -> chained D Other c p (NValue t) -> wt D G (XDot a p) (Some t)
| wt_dotcall a c p args r us t :
    wt D G a (Some (TObj c)) -> chained D Other c p r -> wts D G args us -> gives r us t -> wt D G (XDotCall a p args) t
| wt_cast c a d : known_type (TObj c) -> wt D G a (Some (TObj d)) -> wt D G (XCast c a) (Some (TObj c))
with wts (D : option str) (G : tenv) : list expr -> list (option ty) -> Prop :=
| wts_nil : wts D G [] []
| wts_cons e l t us : wt D G e t -> wts D G l us -> wts D G (e :: l) (t :: us).
(** Statements, with the variables declared behind them, in a method of type [R]. *)
Inductive wst (D : option str) (R : option ty) : tenv -> stmt -> tenv -> Prop :=
| wst_decl m G t x e u :
    m x = None -> known_type t -> wt D (tupd m x t :: G) e u -> inits t u -> wst D R (m :: G) (SDecl t x e) (tupd m x t :: G)
| wst_assign G p t e u : stands D G p (NValue t) -> wt D G e u -> suits t u -> wst D R G (SAssign p e) G
| wst_print G e u : wt D G e u -> wst D R G (SPrint e) G
| wst_expr G e u : wt D G e u -> wst D R G (SExpr e) G
| wst_leave G : R = None -> wst D R G (SReturn None) G
| wst_return G e : wt D G e R -> wst D R G (SReturn (Some e)) G
| wst_if G G1 G2 e u a b : wt D G e u -> wst D R G a G1 -> wst D R G1 b G2 -> wst D R G (SIf e a b) G2
| wst_block G G1 l : wsts D R ((fun _ => None) :: G) l G1 -> wst D R G (SBlock l) G
| wst_while G G1 e u l : wt D G e u -> wsts D R ((fun _ => None) :: G) l G1 -> wst D R G (SWhile e l) G
| wst_throw G e u : wt D G e u -> wst D R G (SThrow e) G
| wst_try G G1 a ks : wst D R G a G1 -> wks D R G ks -> wst D R G (STry a ks) G
| wst_break G : wst D R G SBreak G
| wst_continue G : wst D R G SContinue G
| wst_skip G : wst D R G SSkip G
with wsts (D : option str) (R : option ty) : tenv -> list stmt -> tenv -> Prop :=
| wsts_nil G : wsts D R G [] G
| wsts_cons G G1 G2 s l : wst D R G s G1 -> wsts D R G1 l G2 -> wsts D R G (s :: l) G2
(** Catch parts: the class is known, the variable has it. *)
with wks (D : option str) (R : option ty) : tenv -> list (str * str * stmt) -> Prop :=
| wks_nil G : wks D R G []
| wks_cons G G1 c x b ks :
    known_type (TObj c) -> wst D R (tupd (fun _ => None) x (TObj c) :: G) b G1 -> wks D R G ks -> wks D R G ((c, x, b) :: ks).
Fixpoint types (ps : list (ty * str)) : str -> option ty := match ps with [] => fun _ => None | p :: ps => tupd (types ps) (snd p) (fst p) end.
(** break and continue stand in a loop. *)
Inductive stray : stmt -> Prop :=
| stray_break : stray SBreak
| stray_continue : stray SContinue
| stray_then e a b : stray a -> stray (SIf e a b)
| stray_else e a b : stray b -> stray (SIf e a b)
| stray_block l s : In s l -> stray s -> stray (SBlock l)
| stray_try a ks s : In s (a :: map snd ks) -> stray s -> stray (STry a ks).
(** Statements that say nothing about the flow, and those whose last words are a return or a throw: of a list it is the last statement that
    says something, of an if its else part if there is one and it says something. Blocks always say something. *)
Inductive silent : stmt -> Prop :=
| silent_decl t x e : silent (SDecl t x e)
| silent_assign p e : silent (SAssign p e)
| silent_print e : silent (SPrint e)
| silent_expr e : silent (SExpr e)
| silent_skip : silent SSkip
| silent_if e a b : silent a -> silent b -> silent (SIf e a b)
| silent_try a ks : Forall silent (a :: map snd ks) -> silent (STry a ks).
Inductive returns : stmt -> Prop :=
| returns_return o : returns (SReturn o)
| returns_else e a b : returns b -> returns (SIf e a b)
| returns_then e a b : returns a -> silent b -> returns (SIf e a b)
| returns_block l1 s l2 : returns s -> Forall silent l2 -> returns (SBlock (l1 ++ s :: l2))
| returns_while e l1 s l2 : returns s -> Forall silent l2 -> returns (SWhile e (l1 ++ s :: l2))
| returns_throw e : returns (SThrow e)
| returns_try a ks l1 s l2 : a :: map snd ks = l1 ++ s :: l2 -> returns s -> Forall silent l2 -> returns (STry a ks).
Definition well_typed_method (D : option str) (q : meth) : Prop :=
  (exists G, wsts D (m_ret q) [types (m_params q)] (m_body q) G) /\
  ~ stray (SBlock (m_body q)) /\ (m_ret q <> None -> returns (SBlock (m_body q))).
Definition well_typed : Prop :=
  (forall k q, In k (p_classes P) -> In q (c_methods k) -> well_typed_method (Some (c_name k)) q) /\
  (forall q, In q (p_funcs P) -> well_typed_method None q).
End Rules.
