(** What the methods of strings mean. *)
From Verif Require Import Base.

(** [t] is a part of [s], [i] characters behind its front. *)
Definition occurs (s t : str) (i : Z) : Prop := exists a b, s = a ++ t ++ b /\ Z.of_nat (length a) = i.
(** The first place of [t] that is not before [pos], and the last place. *)
Definition first_from (s t : str) (pos i : Z) : Prop :=
  (pos <= i)%Z /\ occurs s t i /\ forall j, (pos <= j < i)%Z -> ~ occurs s t j.
Definition last_place (s t : str) (i : Z) : Prop := occurs s t i /\ forall j, (i < j)%Z -> ~ occurs s t j.
(** Texts whose positions fit an int. *)
Definition short (s : str) : Prop := (Z.of_nat (length s) < 2 ^ 31 - 1)%Z.

(** Cutting a text at every separator, from the left. *)
Inductive cut (sep : str) : str -> list str -> Prop :=
| cut_last s : (forall i, ~ occurs s sep i) -> cut sep s [s]
| cut_more p r ps : first_from (p ++ sep ++ r) sep 0 (Z.of_nat (length p)) -> cut sep r ps -> cut sep (p ++ sep ++ r) (p :: ps).
(** Texts put together with a separator between them. *)
Fixpoint join (sep : str) (ps : list str) : str :=
  match ps with [] => [] | [p] => p | p :: ps' => p ++ sep ++ join sep ps' end.
