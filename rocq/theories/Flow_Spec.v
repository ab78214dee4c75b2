(** Specification of the single statements: what executing a statement does, in terms of what
    executing its parts does. Fuel does not appear: a statement or expression has a result if
    the interpreter reaches it with some fuel (and then with any more, C29_fuel_irrelevant). *)
From Coq Require Import Floats.SpecFloat.
From Verif Require Import Base Text_Model Tok_Model TypeTable TypeSys_Model Value_Model Interp_Model Interp_Spec.

Section FlowSpec.
Context (P : prog).

(** Evaluating [e] into an object holding [d] gives [v]; or is cut short by flow [f]. *)
Definition evaluates (e : expr) (d : obj) (s : st) (v : obj) (s' : st) : Prop := exists n, eval P n e d s = (Val v, s').
Definition cut_short (e : expr) (d : obj) (s : st) (f : flow) (s' : st) : Prop := exists n, eval P n e d s = (Raise f, s').
(** Executing a statement, or a sequence of statements in a scope of its own, ends in state [s']. *)
Definition executes (t : stmt) (s s' : st) : Prop := exists n, visit P n t s = (Val tt, s').
Definition executes_block (l : list stmt) (s s' : st) : Prop := exists n, block P n l s = (Val tt, s').

Definition with_flow (s : st) (f : flow) : st := St (s_frames s) (s_world s) f.
(** How the current method goes on: normally, looking for a loop, or leaving. *)
Definition leaving (f : flow) : Prop := f = FReturn \/ f = FThrow \/ f = FExit.

(** A sequence runs in order and stops at the first statement that does not end normally. *)
Inductive in_order : list stmt -> st -> st -> Prop :=
| order_end s : in_order [] s s
| order_stop t l s : s_flow s <> FNormal -> in_order (t :: l) s s
| order_next t l s s1 s2 : s_flow s = FNormal -> executes t s s1 -> in_order l s1 s2 -> in_order (t :: l) s s2.

(** The rounds of a while loop; [d] is the object that receives the condition. *)
Inductive rounds (c : expr) (b : stmt) : obj -> st -> st -> Prop :=
| round_cut d s f s1 : cut_short c d s f s1 -> rounds c b d s (with_flow s1 f)
| round_end d s v s1 : evaluates c d s v s1 -> is_true v = false -> rounds c b d s s1
| round_break d s v s1 s2 : evaluates c d s v s1 -> is_true v = true -> executes b s1 s2 -> s_flow s2 = FBreak ->
    rounds c b d s (with_flow s2 FNormal)
| round_leave d s v s1 s2 : evaluates c d s v s1 -> is_true v = true -> executes b s1 s2 -> leaving (s_flow s2) ->
    rounds c b d s s2
| round_again d s v s1 s2 s3 : evaluates c d s v s1 -> is_true v = true -> executes b s1 s2 ->
    s_flow s2 = FNormal \/ s_flow s2 = FContinue -> rounds c b v (with_flow s2 FNormal) s3 -> rounds c b d s s3.

(** None of these cases has the value [v]. *)
Inductive misses (v : obj) : list (expr * list stmt) -> st -> st -> Prop :=
| misses_nil s : misses v [] s s
| misses_cons ce b cs s w s1 s2 : evaluates ce anon s w s1 -> compare_op (p_io P) CEq v w = Ok false ->
    misses v cs s1 s2 -> misses v ((ce, b) :: cs) s s2.
(** What a switch with value [v] executes: the block of the first equal case, otherwise the
    default block. *)
Inductive chosen (v : obj) (cs : list (expr * list stmt)) (d : list stmt) : st -> st -> Prop :=
| chosen_case pre ce b post s s1 w s2 s3 : cs = pre ++ (ce, b) :: post -> misses v pre s s1 -> evaluates ce anon s1 w s2 ->
    compare_op (p_io P) CEq v w = Ok true -> executes_block b s2 s3 -> chosen v cs d s s3
| chosen_default s s1 s2 : misses v cs s s1 -> executes_block d s1 s2 -> chosen v cs d s s2.
(** Evaluating a case expression is cut short. *)
Inductive case_cut (v : obj) (cs : list (expr * list stmt)) : st -> st -> Prop :=
| a_case_cut pre ce b post s s1 f s2 : cs = pre ++ (ce, b) :: post -> misses v pre s s1 -> cut_short ce anon s1 f s2 ->
    case_cut v cs s (with_flow s2 f).
(** A whole switch. break ends it; continue starts it again with the value just computed as
    destination; return, an exception and exit pass through. *)
Inductive selects (e : expr) (cs : list (expr * list stmt)) (d : list stmt) : obj -> st -> st -> Prop :=
| select_cut o s f s1 : cs <> [] -> cut_short e o s f s1 -> selects e cs d o s (with_flow s1 f)
| select_case_cut o s v s1 s2 : cs <> [] -> evaluates e o s v s1 -> case_cut v cs s1 s2 -> selects e cs d o s s2
| select_end o s v s1 s2 : (cs <> [] /\ evaluates e o s v s1 \/ cs = [] /\ v = o /\ s1 = s) -> chosen v cs d s1 s2 ->
    s_flow s2 = FNormal \/ s_flow s2 = FBreak -> selects e cs d o s (with_flow s2 FNormal)
| select_leave o s v s1 s2 : (cs <> [] /\ evaluates e o s v s1 \/ cs = [] /\ v = o /\ s1 = s) -> chosen v cs d s1 s2 ->
    leaving (s_flow s2) -> selects e cs d o s s2
| select_restart o s v s1 s2 s3 : (cs <> [] /\ evaluates e o s v s1 \/ cs = [] /\ v = o /\ s1 = s) -> chosen v cs d s1 s2 ->
    s_flow s2 = FContinue -> selects e cs d v (with_flow s2 FNormal) s3 -> selects e cs d o s s3.

(** Entering a catch clause: a scope of its own, holding the exception under the clause's name
    if it has one. *)
Definition entered (d : option (str * str)) (exn : option obj) (s s' : st) : Prop :=
  exists sc fs r, s_frames s = fs :: r /\ s' = St (Frame (sc :: fr_scopes fs) (fr_ret fs) :: r) (s_world s) FNormal /\
    match d, exn with
    | Some (t, x), Some o => exists v, assign_to P (default_obj t) o = Ok v /\ sc = [(x, v)]
    | _, _ => sc = []
    end.
(** Leaving it: the innermost scope is gone. *)
Definition left_scope (s s' : st) : Prop :=
  exists sc l rv r, s_frames s = Frame (sc :: l) rv :: r /\ s' = St (Frame l rv :: r) (s_world s) (s_flow s).
(** The catch clauses of a try statement whose body ended in [s]. *)
Inductive handled (cs : list (option (str * str) * list stmt)) : st -> st -> Prop :=
| handled_not_thrown s : s_flow s <> FThrow -> handled cs s s
| handled_no_clauses s : s_flow s = FThrow -> cs = [] -> handled cs s (with_flow s FNormal)
| handled_not_accepted s : s_flow s = FThrow -> cs <> [] -> Forall (fun c => ~ accepting P (w_exn (s_world s)) c) cs -> handled cs s s
| handled_by s d h s1 s2 s3 : s_flow s = FThrow -> first_accepting P (w_exn (s_world s)) cs (d, h) ->
    entered d (w_exn (s_world s)) s s1 -> executes_block h s1 s2 -> left_scope s2 s3 -> handled cs s s3.
(** The finally block: runs exactly once, with flow Normal; if it ends normally the pending
    flow goes on, otherwise its own. *)
Inductive finished (fin : option (list stmt)) : st -> st -> Prop :=
| finished_none s : fin = None -> finished fin s s
| finished_pending s l s1 : fin = Some l -> executes_block l (with_flow s FNormal) s1 -> s_flow s1 = FNormal ->
    finished fin s (with_flow s1 (s_flow s))
| finished_own s l s1 : fin = Some l -> executes_block l (with_flow s FNormal) s1 -> s_flow s1 <> FNormal -> finished fin s s1.
End FlowSpec.
