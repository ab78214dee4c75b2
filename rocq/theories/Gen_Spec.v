(** Placement of jumps, independently of the generator. *)
From Coq Require Import Floats.SpecFloat.
From Verif Require Import Base Text_Model Tok_Model TypeTable TypeSys_Model Value_Model Interp_Model.

(** Every break and continue of the statement stands in the body of a loop or in a switch
    of the statement itself; with [inside = true] the statement itself is in such a place. *)
Fixpoint placed (inside : bool) (s : stmt) : bool :=
  match s with
  | SBreak | SContinue => inside
  | SBlock l => forallb (placed inside) l
  | SIf _ a b => placed inside a && placed inside b
  | SWhile _ b => placed true b
  | SFor i _ it b => placed false i && placed false it && placed true b
  | SForeach _ _ _ _ _ _ b => placed true b
  | SSwitch _ cs d => forallb (fun c => match c with (_, b) => forallb (placed true) b end) cs && forallb (placed true) d
  | STry b cs fin =>
      forallb (placed inside) b && forallb (fun c => match c with (_, h) => forallb (placed inside) h end) cs &&
      match fin with Some l => forallb (placed inside) l | None => true end
  | _ => true
  end.

(** The initialisation and iteration statements of every for loop contain no break or
    continue that would refer to that loop or to a surrounding one. *)
Fixpoint plain_steps (s : stmt) : bool :=
  match s with
  | SBlock l => forallb plain_steps l
  | SIf _ a b => plain_steps a && plain_steps b
  | SWhile _ b => plain_steps b
  | SFor i _ it b => placed false i && placed false it && plain_steps i && plain_steps it && plain_steps b
  | SForeach _ _ _ _ _ _ b => plain_steps b
  | SSwitch _ cs d => forallb (fun c => match c with (_, b) => forallb plain_steps b end) cs && forallb plain_steps d
  | STry b cs fin =>
      forallb plain_steps b && forallb (fun c => match c with (_, h) => forallb plain_steps h end) cs &&
      match fin with Some l => forallb plain_steps l | None => true end
  | _ => true
  end.

(** The statement cannot be left through its end: it is a return, throw or exit, or it
    contains one on each of its branches. *)
Fixpoint leaves (s : stmt) : bool :=
  match s with
  | SReturn _ | SThrow _ | SExit _ => true
  | SBlock l => existsb leaves l
  | SIf _ a b => leaves a && leaves b
  | STry b cs fin =>
      match fin with Some l => existsb leaves l | None => false end ||
      (existsb leaves b && negb (bool_decide (cs = [])) &&
       forallb (fun c => match c with (_, h) => existsb leaves h end) cs)
  | _ => false
  end.

(** The expressions a statement evaluates itself, and those it throws. *)
Fixpoint exprs (s : stmt) : list expr :=
  match s with
  | SExpr e | SAssert e | SAssign _ e | SDelete e | SExit e | SPrint e | SReturn (Some e) | SThrow (Some e) | SDecl _ _ (Some e) => [e]
  | SBlock l => concat (map exprs l)
  | SFor i c it b => exprs i ++ option_list c ++ exprs it ++ exprs b
  | SForeach _ _ c _ _ _ b => option_list c ++ exprs b
  | SIf c a b => c :: exprs a ++ exprs b
  | SSwitch e cs d => e :: concat (map (fun c => match c with (ce, b) => ce :: concat (map exprs b) end) cs) ++ concat (map exprs d)
  | STry b cs fin =>
      concat (map exprs b) ++ concat (map (fun c => match c with (_, h) => concat (map exprs h) end) cs) ++
      match fin with Some l => concat (map exprs l) | None => [] end
  | SWhile c b => c :: exprs b
  | _ => []
  end.
Fixpoint throws (s : stmt) : list (option expr) :=
  match s with
  | SThrow e => [e]
  | SBlock l => concat (map throws l)
  | SFor i _ it b => throws i ++ throws it ++ throws b
  | SForeach _ _ _ _ _ _ b | SWhile _ b => throws b
  | SIf _ a b => throws a ++ throws b
  | SSwitch _ cs d => concat (map (fun c => match c with (_, b) => concat (map throws b) end) cs) ++ concat (map throws d)
  | STry b cs fin =>
      concat (map throws b) ++ concat (map (fun c => match c with (_, h) => concat (map throws h) end) cs) ++
      match fin with Some l => concat (map throws l) | None => [] end
  | _ => []
  end.
(** No rethrow, no throw statement in a catch clause, no finally, no foreach. *)
Fixpoint tame (s : stmt) : bool :=
  match s with
  | SThrow None | SForeach _ _ _ _ _ _ _ => false
  | SBlock l => forallb tame l
  | SFor i _ it b => tame i && tame it && tame b
  | SWhile _ b => tame b
  | SIf _ a b => tame a && tame b
  | SSwitch _ cs d => forallb (fun c => match c with (_, b) => forallb tame b end) cs && forallb tame d
  | STry b cs fin =>
      forallb tame b && bool_decide (fin = None) &&
      forallb (fun c => match c with (_, h) => forallb tame h && bool_decide (concat (map throws h) = []) end) cs
  | _ => true
  end.

(** Evaluating [e] makes no exception pending except foreign ones. *)
Definition only_foreign (P : prog) (foreign : obj -> Prop) (e : expr) : Prop :=
  forall n dst s,
    let ok s' := (s_flow s = FThrow /\ w_exn (s_world s') = w_exn (s_world s)) \/
                 exists o, w_exn (s_world s') = Some o /\ foreign o in
    match eval P n e dst s with
    | (Val _, s') => s_flow s' = FThrow -> ok s'
    | (Raise FThrow, s') => ok s'
    | _ => True
    end.
(** The values of [e] are instances of its static type. *)
Definition typed (P : prog) (ty : expr -> str) (e : expr) : Prop :=
  forall n dst s v s', eval P n e dst s = (Val v, s') -> p_inst P (o_type v) (ty e) = true.

(** The statement contains [throw e] outside of every try statement. *)
Fixpoint bare_throw (s : stmt) : bool :=
  match s with
  | SThrow (Some _) => true
  | SBlock l => existsb bare_throw l
  | SFor i _ it b => bare_throw i || bare_throw it || bare_throw b
  | SForeach _ _ _ _ _ _ b | SWhile _ b => bare_throw b
  | SIf _ a b => bare_throw a || bare_throw b
  | SSwitch _ cs d => existsb (fun c => match c with (_, b) => existsb bare_throw b end) cs || existsb bare_throw d
  | _ => false
  end.

(** The statement and all statements inside it. *)
Fixpoint nested (s : stmt) : list stmt :=
  s :: match s with
       | SBlock l => concat (map nested l)
       | SFor i _ it b => nested i ++ nested it ++ nested b
       | SForeach _ _ _ _ _ _ b | SWhile _ b => nested b
       | SIf _ a b => nested a ++ nested b
       | SSwitch _ cs d => concat (map (fun c => match c with (_, b) => concat (map nested b) end) cs) ++ concat (map nested d)
       | STry b cs fin =>
           concat (map nested b) ++ concat (map (fun c => match c with (_, h) => concat (map nested h) end) cs) ++
           match fin with Some l => concat (map nested l) | None => [] end
       | _ => []
       end.
Definition statements (l : list stmt) : list stmt := concat (map nested l).
(** Statements after which the next one does not run. *)
Definition jump (s : stmt) : Prop :=
  match s with SBreak | SContinue | SReturn _ | SThrow _ | SExit _ => True | _ => False end.
Definition return_or_throw (s : stmt) : Prop := match s with SReturn _ | SThrow _ => True | _ => False end.
