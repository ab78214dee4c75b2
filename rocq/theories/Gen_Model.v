(** Model of the control flow checks of the tree generator:
    Projects/Core/Core/AST/TreeGenerator.cpp.

    The generator makes these checks while it reads the tokens; the model makes them in the
    same order on the statements it builds. Simplified: expressions are already built, and
    their static types are given by an arbitrary function [ty]; in a switch the default block
    is read after the cases, in a try statement finally is read after the catch clauses. *)
From Coq Require Import Floats.SpecFloat.
From Verif Require Import Base Text_Model Tok_Model TypeTable TypeSys_Model Value_Model Interp_Model.

(** mControlFlow and mThrownExceptions *)
Record gst := Gst { g_flow : flow; g_thrown : list str }.
Definition with_flow (f : flow) (s : gst) : gst := Gst f (g_thrown s).
Definition with_thrown (l : list str) (s : gst) : gst := Gst (g_flow s) l.
(** std::set insert and erase *)
Definition set_add (t : str) (l : list str) : list str := if bool_decide (t ∈ l) then l else t :: l.
Definition set_del (t : str) (l : list str) : list str := filter (fun u => u <> t) l.
Definition set_union (a b : list str) : list str := foldr set_add b a.

(** A loop over nodes that passes the generator's state on. *)
Section Fold.
Context {A : Type} (f : A -> gst -> res gst).
Fixpoint fold_res (l : list A) (s : gst) : res gst :=
  match l with
  | [] => Ok s
  | x :: r => let! s1 := f x s in fold_res r s1
  end.
End Fold.

(** generate, 128-151, around the loop of process, 679-708: [check] processes the statements. *)
Definition gen_scope (needs : bool) (check : gst -> res gst) (s : gst) : res gst :=
  let! s1 := check (with_flow FNormal s) in
  match needs, g_flow s1 with
  | true, FNormal => Throw "ControlFlowException"
  | _, _ => Ok s1
  end.

Section Gen.
Context (ty : expr -> str) (rt : str) (* QualifiedTypename of the method *).

(** process_statement, 1818-1857 and the process_ functions of the statements. [allow] is
    mStackFrame->allowBreakAndContinue(): a block inherits it from the enclosing scope
    (pushScope, 2236-2245), and the flag passed by loops reaches only a block. *)
Fixpoint gen_stmt (allow : bool) (s : stmt) (g : gst) {struct s} : res gst :=
  match s with
  | SBreak | SContinue =>                                               (* 1041-1055, 1101-1115 *)
      if allow then Ok (with_flow (match s with SBreak => FBreak | _ => FContinue end) g)
      else Throw "ControlFlowException"
  | SExit _ => Ok (with_flow FExit g)                                   (* 1175-1192 *)
  | SReturn e =>                                                        (* 1751-1773 *)
      let t := match e with None => t_void | Some e => ty e end in
      if str_eqb rt t then Ok (with_flow FReturn g) else Throw "TypeMismatch"
  | SThrow e =>                                                         (* 1969-1988 *)
      let g1 := with_flow FThrow g in
      match e with
      | None => Ok g1
      | Some e => Ok (with_thrown (set_add (ty e) (g_thrown g1)) g1)
      end
  | SBlock l => gen_scope false (fold_res (gen_stmt allow) l) g         (* 1776-1782 *)
  | SIf _ a b => let! g1 := gen_stmt allow a g in gen_stmt allow b g1   (* 1451-1480 *)
  | SWhile _ b =>                                                       (* 2217-2234 *)
      match b with
      | SBlock l => gen_scope false (fold_res (gen_stmt true) l) g
      | _ => gen_stmt allow b g
      end
  | SFor i _ it b =>                                                    (* 1226-1273 *)
      let! g1 := gen_stmt allow i g in
      let! g2 := match it with
                 | SBlock l => gen_scope false (fold_res (gen_stmt true) l) g1
                 | _ => gen_stmt allow it g1
                 end in
      match b with
      | SBlock l => gen_scope false (fold_res (gen_stmt true) l) g2
      | _ => gen_stmt allow b g2
      end
  | SForeach _ _ _ _ _ _ b =>                                           (* 1279-1373 *)
      match b with
      | SBlock l => gen_scope false (fold_res (gen_stmt true) l) g
      | _ => gen_stmt allow b g
      end
  | SSwitch _ cs d =>                                                   (* 1880-1961 *)
      let! g1 := fold_res (fun c => match c with (_, b) => gen_scope true (fold_res (gen_stmt true) b) end) cs g in
      match d with
      | [] => Ok g1
      | _ => gen_scope true (fold_res (gen_stmt true) d) g1
      end
  | STry b cs fin =>                                                    (* 1996-2089 *)
      let saved := g_thrown g in
      let! g1 := gen_scope false (fold_res (gen_stmt allow) b) (with_thrown [] g) in
      let! g2 := fold_res (fun c => match c with (d, h) => fun x =>
                    gen_scope false (fold_res (gen_stmt allow) h)
                      (with_thrown (match d with Some (t, _) => set_del t (g_thrown x) | None => [] end) x) end) cs g1 in
      let! g3 := match fin with
                 | Some l => gen_scope false (fold_res (gen_stmt allow) l) g2
                 | None => Ok g2
                 end in
      let caught := match cs with [] => [] | _ => g_thrown g3 end in
      Ok (with_thrown (set_union saved caught) g3)
  | SSkip | SExpr _ | SAssert _ | SAssign _ _ | SDelete _ | SPrint _ | SDecl _ _ _ => Ok g
  end.

(** generateAST 156-168 with initialize 209-217 and finalize 83-123. *)
Definition gen_method (throws : bool) (m : method) : res gst :=
  let! g := gen_scope false (fold_res (gen_stmt false) (m_body m)) (Gst FNormal []) in
  if negb (bool_decide (g_thrown g = [])) && negb throws then Throw "ControlFlowException"
  else if negb (str_eqb rt t_void) && negb (match g_flow g with FReturn | FThrow => true | _ => false end)
  then Throw "SyntaxError"
  else Ok g.
End Gen.
