(** What a range enumerates. *)
From Verif Require Import Base.
From Coq Require Import Sorting.Sorted.

(** The numbers first, first + step, ... that do not pass the end, in ascending order, each once. *)
Definition enumerates (first last step : Z) (l : list Z) : Prop :=
  StronglySorted Z.lt l /\ forall x, x ∈ l <-> (first <= x <= last)%Z /\ exists k, x = (first + k * step)%Z.
(** The numbers that fit an int. *)
Definition int (z : Z) : Prop := (- 2 ^ 31 <= z < 2 ^ 31)%Z.
