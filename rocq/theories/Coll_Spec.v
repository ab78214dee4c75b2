(** Specification of the collections: mathematical sequences, queues, maps, sorted sequences. *)
From Coq Require Import ZArith Sorting.
From Verif Require Import Base Coll_Model.
Open Scope Z_scope.

Section Spec.
Context {V : Type} (eqv : V -> V -> bool).

(** The index of the first element equal to [v]. *)
Fixpoint first_index (l : list V) (v : V) : option nat :=
  match l with
  | [] => None
  | x :: l => if eqv x v then Some 0%nat else option_map S (first_index l v)
  end.
Definition outside {A} : res A := Throw "OutOfBoundsException".
(** The element at an integer position. *)
Definition nth_z (l : list V) (i : Z) : option V := if i <? 0 then None else l !! Z.to_nat i.

(** Sequences: the new sequence and the answer. *)
Definition seq_step (l : list V) (o : lop V) : res (list V * answer V) :=
  match o with
  | PushBack v => Ok (l ++ [v], AUnit)
  | PushFront v => Ok (v :: l, AUnit)
  | PopFront => match l with [] => outside | _ :: l => Ok (l, AUnit) end
  | PopBack => match l with [] => outside | _ => Ok (removelast l, AUnit) end
  | Erase i => match nth_z l i with None => outside | Some _ => Ok (delete (Z.to_nat i) l, AUnit) end
  | Insert i v => if (0 <=? i) && (i <=? Z.of_nat (length l))
                  then Ok (take (Z.to_nat i) l ++ v :: drop (Z.to_nat i) l, AUnit) else outside
  | Clear => Ok ([], AUnit)
  | At i => match nth_z l i with None => outside | Some v => Ok (l, AVal v) end
  | First => match l with [] => outside | v :: _ => Ok (l, AVal v) end
  | Last => match last l with None => outside | Some v => Ok (l, AVal v) end
  | IndexOf v => Ok (l, AInt (match first_index l v with Some i => Z.of_nat i | None => -1 end))
  | Contains v => Ok (l, ABool (existsb (fun x => eqv x v) l))
  | Size => Ok (l, AInt (Z.of_nat (length l)))
  | Empty => Ok (l, ABool (match l with [] => true | _ => false end))
  | Elements => Ok (l, AList l outside)
  end.


(** The calls the first theorem about sequences is about: no pop_back, insert only on vectors, no erase
    one behind the end, no push_front on an empty DoubleLinkedList. *)
Definition plain (k : kind) (l : list V) (o : lop V) : Prop :=
  match o with
  | PopBack => False
  | PushFront _ => k = KDouble -> l <> []
  | Erase i => i <> Z.of_nat (length l)
  | Insert _ _ => k = KVector
  | _ => True
  end.
(** The calls the theorem about pop_back is about: insert only on vectors, no erase one behind the
    end, no push_front on an empty DoubleLinkedList. After a pop_back ([d], until the collection has
    been emptied and filled again) only calls which do not look at the tail. *)
Definition allowed (k : kind) (s : list V * bool) (o : lop V) : Prop :=
  let '(l, d) := s in
  match o with
  | PopBack | PopFront | Clear | At _ | First | IndexOf _ | Contains _ | Size | Empty => True
  | PushBack _ => d = true -> l = []
  | PushFront _ => d = false /\ (k = KDouble -> l <> [])
  | Erase i => d = false /\ i <> Z.of_nat (length l)
  | Insert _ _ => d = false /\ k = KVector
  | Last | Elements => d = false
  end.
(** Has pop_back been used? *)
Definition popped (d : bool) (o : lop V) : bool :=
  match o with PopBack => true | PushBack _ | Clear => false | _ => d end.
Definition seq_step' (s : list V * bool) (o : lop V) : res (list V * bool * answer V) :=
  match seq_step (fst s) o with
  | Ok (l, a) => Ok (l, popped (snd s) o, a)
  | Throw e => Throw e
  | UB => UB
  | Fuel => Fuel
  end.

(** Stacks: the top is the head. *)
Definition lifo_step (l : list V) (o : sop V) : res (list V * answer V) :=
  match o with
  | Push v => Ok (v :: l, AUnit)
  | Pop => match l with [] => outside | v :: l => Ok (l, AVal v) end
  | Peek => match l with [] => outside | v :: _ => Ok (l, AVal v) end
  | SAt i => match nth_z (rev l) i with None => outside | Some v => Ok (l, AVal v) end
  | SErase i => match nth_z (rev l) i with None => outside | Some _ => Ok (rev (delete (Z.to_nat i) (rev l)), AUnit) end
  | SIndexOf v => Ok (l, AInt (match first_index (rev l) v with Some i => Z.of_nat i | None => -1 end))
  | SContains v => Ok (l, ABool (existsb (fun x => eqv x v) l))
  | SSize => Ok (l, AInt (Z.of_nat (length l)))
  | SEmpty => Ok (l, ABool (match l with [] => true | _ => false end))
  | SClear => Ok ([], AUnit)
  end.

(** The calls the theorem about stacks is about: after a pop, and until the stack has been emptied,
    only calls which do not look at the top; no erase one behind the end. *)
Definition stack_ok (s : list V * bool) (o : sop V) : Prop :=
  let '(l, d) := s in
  match o with
  | Push _ | Pop | Peek => d = true -> l = []
  | SErase i => d = false /\ i <> Z.of_nat (length l)
  | _ => True
  end.
Definition lifo_step' (s : list V * bool) (o : sop V) : res (list V * bool * answer V) :=
  match lifo_step (fst s) o with
  | Ok (l, a) => Ok (l, match o with Pop => true | Push _ | SClear => false | _ => snd s end, a)
  | Throw e => Throw e
  | UB => UB
  | Fuel => Fuel
  end.

(** Queues: the head leaves first. *)
Definition fifo_step (l : list V) (o : qop V) : res (list V * answer V) :=
  match o with
  | Enqueue v => Ok (l ++ [v], AUnit)
  | Dequeue => match l with [] => outside | v :: l => Ok (l, AVal v) end
  | QPeek => match l with [] => outside | v :: _ => Ok (l, AVal v) end
  | QAt i => match nth_z l i with None => outside | Some v => Ok (l, AVal v) end
  | QSize => Ok (l, AInt (Z.of_nat (length l)))
  | QEmpty => Ok (l, ABool (match l with [] => true | _ => false end))
  | QClear => Ok ([], AUnit)
  | QElements => Ok (l, AList l outside)
  end.

(** peek is right only when there are not two elements. *)
Definition queue_ok (l : list V) (o : qop V) : Prop := match o with QPeek => (length l <= 1)%nat | _ => True end.

(** Sorted sequences: insertion behind everything that is not greater. *)
Fixpoint put_sorted (lt : V -> V -> bool) (v : V) (l : list V) : list V :=
  match l with
  | [] => [v]
  | x :: r => if lt v x then v :: l else x :: put_sorted lt v r
  end.
Definition sorted_step (lt : V -> V -> bool) (l : list V) (o : setop V) : res (list V * answer V) :=
  match o with
  | SetInsert v => Ok (put_sorted lt v l, AUnit)
  | SetErase i => match nth_z l i with None => outside | Some _ => Ok (delete (Z.to_nat i) l, AUnit) end
  | SetAt i => match nth_z l i with None => outside | Some v => Ok (l, AVal v) end
  | SetFirst => match l with [] => outside | v :: _ => Ok (l, AVal v) end
  | SetLast => match last l with None => outside | Some v => Ok (l, AVal v) end
  | SetIndexOf v => Ok (l, AInt (match first_index l v with Some i => Z.of_nat i | None => -1 end))
  | SetContains v => Ok (l, ABool (existsb (fun x => eqv x v) l))
  | SetSize => Ok (l, AInt (Z.of_nat (length l)))
  | SetEmpty => Ok (l, ABool (match l with [] => true | _ => false end))
  | SetClear => Ok ([], AUnit)
  | SetElements => Ok (l, AList l outside)
  end.
(** The calls the theorem about sets is about: no last, no erase one behind the end. *)
Definition set_ok (l : list V) (o : setop V) : Prop :=
  match o with SetLast => False | SetErase i => i <> Z.of_nat (length l) | _ => True end.
End Spec.

(** Several collections: what each holds, the calls and their answers. *)
Section Runs.
Context {S O A : Type} (spec : S -> O -> res (S * A)) (ok : S -> O -> Prop).
Fixpoint spec_run (ss : list S) (os : list (nat * O)) : list (res A) :=
  match os with
  | [] => []
  | (x, o) :: os =>
      match ss !! x with
      | None => Throw "unknown identifier" :: spec_run ss os
      | Some s => match spec s o with
                  | Ok (s', a) => Ok a :: spec_run (<[x := s']> ss) os
                  | Throw e => Throw e :: spec_run ss os
                  | UB => UB :: spec_run ss os
                  | Fuel => Fuel :: spec_run ss os
                  end
      end
  end.
(** Every call of a history is one of the [ok] ones. *)
Fixpoint all_ok (ss : list S) (os : list (nat * O)) : Prop :=
  match os with
  | [] => True
  | (x, o) :: os =>
      match ss !! x with
      | None => all_ok ss os
      | Some s => ok s o /\ match spec s o with Ok (s', _) => all_ok (<[x := s']> ss) os | _ => all_ok ss os end
      end
  end.
End Runs.

(** Finite maps: the value of each key, and how many keys have one. *)
Section Maps.
Context {K W : Type} (eqk : K -> K -> bool).
Definition fmap_step (s : (K -> option W) * Z) (o : mop K W) : res ((K -> option W) * Z * manswer W) :=
  let '(m, n) := s in
  let set k x := fun k' => if eqk k k' then x else m k' in
  match o with
  | MInsert k v => Ok (set k (Some v), n + 1, MUnit)
  | MPut k v => match m k with Some _ => Ok (set k (Some v), n, MUnit) | None => Throw "Exception" end
  | MRemove k => match m k with Some _ => Ok (set k None, n - 1, MUnit) | None => Ok (m, n, MUnit) end
  | MGet k => match m k with Some v => Ok (m, n, MVal v) | None => Throw "Exception" end
  | MContains k => Ok (m, n, MBool (match m k with Some _ => true | None => false end))
  | MIndexOf k => Ok (m, n, MInt (match m k with Some _ => 0 | None => -1 end))
  | MSize => Ok (m, n, MInt n)
  | MEmpty => Ok (m, n, MBool (n =? 0))
  | MClear => Ok (fun _ => None, 0, MUnit)
  end.
(** insert is used for absent keys only; indexOf is not used. *)
Definition map_ok (s : (K -> option W) * Z) (o : mop K W) : Prop :=
  match o with MInsert k _ => fst s k = None | MIndexOf _ => False | _ => True end.
End Maps.
