(** Model of number ranges and of the iterators over random access collections.
    Code: /repo/Projects/Library/System/Collections/Range.os and RandomAccessIterator.os (Slang programs, followed statement
    by statement). Slang's int is an int32_t; leaving its range is undefined behaviour. *)
From Verif Require Import Base Value_Model.

(** Range.os:89-91. *)
Record range := Rng { r_start : Z; r_end : Z; r_step : Z }.
(** Constructor, Range.os:21-29; Create, 14-16. *)
Definition range_new (first last step : Z) : res range :=
  if (step =? 0)%Z then Throw "InvalidArgumentException" else Ok (Rng first last step).
(** step, Range.os:73-79. *)
Definition range_step (r : range) (step : Z) : res range :=
  if (step =? 0)%Z then Throw "Exception" else range_new (r_start r) (r_end r) step.
(** at, Range.os:38-44; operator[], 85-87. *)
Definition range_at (r : range) (index : Z) : res Z :=
  if (index <? 0)%Z then Throw "OutOfBoundsException"
  else
    let! off := checked 32 (index * r_step r) in
    let! len := checked 32 (r_end r - r_start r) in
    if (len <? off)%Z then Throw "OutOfBoundsException" else checked 32 (r_start r + off).
(** size, Range.os:81-83; the step is not zero. *)
Definition range_size (r : range) : res Z :=
  let! len := checked 32 (r_end r - r_start r) in
  let! q := checked 32 (Z.quot len (r_step r)) in
  checked 32 (q + 1).

(** ** RandomAccessIterator.os *)
(** hasNext, 26-32; next, 34-42. The iterator is its mCurrentIndex, reset to -1 (48-50). *)
Definition ra_has_next (r : range) (i : Z) : res bool :=
  let! n := checked 32 (i + 1) in let! size := range_size r in Ok (n <? size)%Z.
Definition ra_next (r : range) (i : Z) : res (Z * Z) :=
  let! more := ra_has_next r i in
  if more then let! n := checked 32 (i + 1) in let! x := range_at r n in Ok (x, n) else Throw "OutOfBoundsException".
(** current, 15-24; peek, 44-46. *)
Definition ra_current (r : range) (i : Z) : res Z := if (i =? -1)%Z then Throw "Exception" else range_at r i.
Definition ra_peek (r : range) (i offset : Z) : res Z := let! n := checked 32 (i + offset) in range_at r n.
(** while ( it.hasNext() ) ... it.next(). *)
Fixpoint ra_all (fuel : nat) (r : range) (i : Z) : res (list Z) :=
  match fuel with
  | O => Fuel
  | S fuel' =>
      let! more := ra_has_next r i in
      if more then let! p := ra_next r i in let! rest := ra_all fuel' r (snd p) in Ok (fst p :: rest) else Ok []
  end.
(** ReverseRandomAccessIterator: hasNext, 86-92; next, 94-102. mCurrentIndex is reset to the size (108-110). *)
Definition rra_has_next (i : Z) : bool := (0 <? i)%Z.
Definition rra_next (r : range) (i : Z) : res (Z * Z) :=
  if rra_has_next i then let! n := checked 32 (i - 1) in let! x := range_at r n in Ok (x, n) else Throw "OutOfBoundsException".
Fixpoint rra_all (fuel : nat) (r : range) (i : Z) : res (list Z) :=
  match fuel with
  | O => Fuel
  | S fuel' => if rra_has_next i then let! p := rra_next r i in let! rest := rra_all fuel' r (snd p) in Ok (fst p :: rest) else Ok []
  end.
(** getIterator and getReverseIterator, Range.os:52-58, read to the end. *)
Definition range_list (fuel : nat) (r : range) : res (list Z) := ra_all fuel r (-1).
Definition range_reverse (fuel : nat) (r : range) : res (list Z) := let! n := range_size r in rra_all fuel r n.
