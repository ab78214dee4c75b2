(** What a set of break points is. *)
From Verif Require Import Base Text_Model Debug_Model.

(** The condition of the break point at a place after the given requests, the latest first. *)
Fixpoint condition_at (history : list dop) (file : str) (line : N) : option condition :=
  match history with
  | [] => None
  | DAdd b :: h => if decide (b_file b = file /\ b_line b = line) then Some (b_cond b) else condition_at h file line
  | DRemove b :: h => if decide (b_file b = file /\ b_line b = line) then None else condition_at h file line
  | DClear :: _ => None
  | _ :: h => condition_at h file line
  end.
(** The places, and the order they are listed in: by file name, then by line. *)
Definition place (b : bpoint) : str * N := (b_file b, b_line b).
Definition before (p q : str * N) : Prop := str_ltb p.1 q.1 = true \/ p.1 = q.1 /\ (p.2 < q.2)%N.
(** What is asked for last. *)
Fixpoint stepping (history : list dop) : next_action :=
  match history with [] => AWait | DNext a :: _ => a | _ :: h => stepping h end.
(** A text without blanks. *)
Definition plain (s : str) : Prop := s <> [] /\ chr 32 ∉ s.
(** Break points a stored list can hold: a file name without blanks that is its own full name, a line that fits an
    unsigned int, and no condition or one between two texts without blanks. *)
Definition storable (fullname : str -> str) (b : bpoint) : Prop :=
  plain (b_file b) /\ fullname (b_file b) = b_file b /\ (b_line b < 2 ^ 32)%N /\
  (b_cond b = no_condition \/ c_type (b_cond b) <> CTInvalid /\ plain (c_left (b_cond b)) /\ plain (c_right (b_cond b))).
