(** Model of the debugger's break points.
    Code: /repo/Projects/Core/Debugger/Condition.cpp, BreakPoint.cpp, Debugger.cpp, and the break point commands of
    /repo/Projects/slang-dbg/LocalClient/LocalClient.cpp. *)
From Verif Require Import Base Text_Model Value_Model.

(** ** Condition.cpp *)
Inductive ctype := CTEquals | CTGreater | CTGreaterEqual | CTLess | CTLessEqual | CTUnequal | CTInvalid.
Global Instance ctype_eq : EqDecision ctype. Proof. solve_decision. Defined.
Record condition := Condition { c_left : str; c_type : ctype; c_right : str }.
Global Instance condition_eq : EqDecision condition. Proof. solve_decision. Defined.
(** Condition::Condition, 20-23. *)
Definition no_condition : condition := Condition [] CTInvalid [].
(** ConditionFromString, 39-49. *)
Definition condition_from_string (t : str) : ctype :=
  if str_eqb t ($"==") then CTEquals
  else if str_eqb t ($">") then CTGreater
  else if str_eqb t ($">=") then CTGreaterEqual
  else if str_eqb t ($"<") then CTLess
  else if str_eqb t ($"<=") then CTLessEqual
  else if str_eqb t ($"!=") then CTUnequal
  else CTInvalid.
(** Condition::isValid, 80-83. *)
Definition condition_valid (c : condition) : bool := negb (bool_decide (c_type c = CTInvalid)).
(** Condition::evaluate, 51-78. None stands for a missing object;
    [F] converts between numbers and texts. *)
Definition condition_evaluate (F : fio) (c : condition) (lhs rhs : option obj) : res bool :=
  match lhs, rhs with
  | Some l, Some r =>
      match c_type c with
      | CTEquals => compare_op F CEq l r
      | CTGreater => compare_op F CGt l r
      | CTGreaterEqual => compare_op F CGe l r
      | CTLess => compare_op F CLt l r
      | CTLessEqual => compare_op F CLe l r
      | CTUnequal => let! b := compare_op F CEq l r in Ok (negb b)
      | CTInvalid => Ok true
      end
  | _, _ => Ok true
  end.
(** Condition::toString, 95-112. *)
Definition condition_text (c : condition) : str :=
  c_left c ++ match c_type c with
              | CTEquals => $" == " | CTGreater => $" > " | CTGreaterEqual => $" >= " | CTLess => $" < "
              | CTLessEqual => $" <= " | CTUnequal => $" != " | CTInvalid => $" "
              end ++ c_right c.

(** ** BreakPoint.cpp *)
Record bpoint := BPoint { b_cond : condition; b_file : str; b_line : N }.
(** BreakPoint::BreakPoint(Position), 22-26. *)
Definition bpoint_at (file : str) (line : N) : bpoint := BPoint no_condition file line.
(** operator<, 73-80. *)
Definition bpoint_lt (a b : bpoint) : bool :=
  if str_eqb (b_file a) (b_file b) then (b_line a <? b_line b)%N else str_ltb (b_file a) (b_file b).
(** toConfigString, 48-56. *)
Definition bpoint_config (b : bpoint) : str :=
  b_file b ++ $" " ++ print_int (Z.of_N (b_line b)) ++ (if condition_valid (b_cond b) then $" " ++ condition_text (b_cond b) else []).

(** ** std::set<BreakPoint>: a list in the order of operator<; two elements are the same when neither is less. *)
Definition bsame (a b : bpoint) : bool := negb (bpoint_lt a b) && negb (bpoint_lt b a).
Fixpoint bfind (b : bpoint) (s : list bpoint) : option bpoint :=
  match s with [] => None | x :: s' => if bsame x b then Some x else bfind b s' end.
Fixpoint binsert (b : bpoint) (s : list bpoint) : list bpoint :=
  match s with
  | [] => [b]
  | x :: s' => if bpoint_lt b x then b :: s else if bpoint_lt x b then x :: binsert b s' else s
  end.
Fixpoint berase (b : bpoint) (s : list bpoint) : list bpoint :=
  match s with [] => [] | x :: s' => if bsame x b then s' else x :: berase b s' end.

(** ** Debugger.cpp *)
Inductive next_action := ANone | AStepInto | AStepOut | AStepOver | AWait.
Global Instance next_action_eq : EqDecision next_action. Proof. solve_decision. Defined.
Record debugger := Debugger {
  d_points : list bpoint; d_next : next_action; d_receiver : option N; d_on_catch : bool; d_on_throw : bool }.
(** Debugger::Debugger, 23-30. *)
Definition debugger_init : debugger := Debugger [] AWait None false false.
Definition set_points (ps : list bpoint) (d : debugger) : debugger := Debugger ps (d_next d) (d_receiver d) (d_on_catch d) (d_on_throw d).
Definition set_next (a : next_action) (d : debugger) : debugger := Debugger (d_points d) a (d_receiver d) (d_on_catch d) (d_on_throw d).
Definition set_receiver (r : option N) (d : debugger) : debugger := Debugger (d_points d) (d_next d) r (d_on_catch d) (d_on_throw d).
(** addBreakPoint, 32-43. *)
Definition add_point (b : bpoint) (d : debugger) : debugger :=
  let ps := match bfind b (d_points d) with Some _ => berase b (d_points d) | None => d_points d end in
  set_points (binsert b ps) d.
(** removeBreakPoint, 171-178: erase of the past-the-end iterator is undefined. *)
Definition remove_point (b : bpoint) (d : debugger) : res (debugger * bool) :=
  match bfind b (d_points d) with
  | None => UB
  | Some _ =>
      let ps := berase b (d_points d) in
      Ok (set_points ps d, (length ps <? length (d_points d))%nat)
  end.
(** clearBreakPoints, 55-58. *)
Definition clear_points (d : debugger) : debugger := set_points [] d.
(** isBreakPoint, 89-92. *)
Definition is_point (b : bpoint) (d : debugger) : bool := match bfind b (d_points d) with Some _ => true | None => false end.
(** registerReceiver, 159-169, and unregisterReceiver, 205-215. *)
Definition register (r : N) (d : debugger) : debugger * bool :=
  match d_receiver d with None => (set_receiver (Some r) d, true) | Some _ => (d, false) end.
Definition unregister (r : N) (d : debugger) : debugger * bool :=
  if bool_decide (d_receiver d = Some r) then (set_receiver None d, true) else (d, false).
(** notify, 99-128: the break point handed to the receiver. *)
Definition dbg_notify (file : str) (line : N) (d : debugger) : option bpoint :=
  match d_receiver d with
  | None => None
  | Some _ =>
      match d_next d with
      | AStepOver => Some (bpoint_at file line)
      | AWait => bfind (bpoint_at file line) (d_points d)
      | _ => None
      end
  end.
(** notifyEnter, 130-135; notifyExit, 151-156. *)
Definition dbg_notify_enter (file : str) (line : N) (d : debugger) : option bpoint :=
  match d_receiver d with Some _ => if bool_decide (d_next d = AStepInto) then Some (bpoint_at file line) else None | None => None end.
Definition dbg_notify_exit (file : str) (line : N) (d : debugger) : option bpoint :=
  match d_receiver d with Some _ => if bool_decide (d_next d = AStepOut) then Some (bpoint_at file line) else None | None => None end.

Inductive dop := DAdd (b : bpoint) | DRemove (b : bpoint) | DClear | DNext (a : next_action) | DRegister (r : N) | DUnregister (r : N).
Definition dstep (o : dop) (d : debugger) : res debugger :=
  match o with
  | DAdd b => Ok (add_point b d)
  | DRemove b => let! p := remove_point b d in Ok (fst p)
  | DClear => Ok (clear_points d)
  | DNext a => Ok (set_next a d)
  | DRegister r => Ok (fst (register r d))
  | DUnregister r => Ok (fst (unregister r d))
  end.
Fixpoint drun (ops : list dop) (d : debugger) : res debugger :=
  match ops with [] => Ok d | o :: ops' => let! d' := dstep o d in drun ops' d' end.

(** ** LocalClient.cpp *)
(** parseCommands, 743-773. *)
Fixpoint parse_commands (token : str) (s : str) : list str :=
  match s with
  | [] => if bool_decide (token = []) then [] else [token]
  | c :: s' =>
      if bool_decide (c = chr 32) then (if bool_decide (token = []) then [] else [token]) ++ parse_commands [] s'
      else parse_commands (token ++ [c]) s'
  end.
Section client.
  (** GetFullname: asks the file system. *)
  Context (fullname : str -> str).
  (** addBreakPoint, 70-96; the line is a size_t cut to unsigned int by Position. *)
  Definition add_command (tokens : list str) (d : debugger) : debugger * bool :=
    match tokens with
    | [_; file; line] =>
        (add_point (BPoint no_condition (fullname file) (Z.to_N (string_to_int line mod 2 ^ 32))) d, true)
    | [_; file; line; l; op; r] =>
        (add_point (BPoint (Condition l (condition_from_string op) r) (fullname file) (Z.to_N (string_to_int line mod 2 ^ 32))) d, true)
    | _ => (d, false)
    end.
  (** removeBreakPoint, 943-966: by its number in the list, counted from one. *)
  Definition remove_command (tokens : list str) (d : debugger) : res (debugger * bool) :=
    match tokens with
    | [_; n] =>
        let idx := string_to_int n in
        if (1 <=? idx)%Z then
          match d_points d !! Z.to_nat (idx - 1) with
          | Some b => let! p := remove_point b d in Ok (fst p, true)
          | None => Ok (d, false)
          end
        else Ok (d, false)
    | _ => Ok (d, false)
    end.
  (** saveConfig, 1010-1016, and loadConfig, 623-634, of the break points; the JSON file in between is not modelled. *)
  Definition store_points (d : debugger) : list str := map bpoint_config (d_points d).
  Definition load_points (texts : list str) (d : debugger) : debugger :=
    fold_left (fun d t => fst (add_command (parse_commands [] ($"breakpoint " ++ t)) d)) texts d.
End client.
