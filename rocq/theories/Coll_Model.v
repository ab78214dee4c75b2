(** Model of the library collections.
    Code: /repo/Projects/Library/System/Collections/ CollectionItem.os, List.os, Vector.os,
    DoubleLinkedList.os, Stack.os, Queue.os, Set.os, Map.os, Pair.os, Iterator.os.
    These are Slang programs; the model follows their statements one by one.
    - A reference to a CollectionItem is an address, 0 is null; items are never released here
      (C03/C04: the memory keeps whatever is still referenced).
    - [delete x] evaluates [x] into a temporary and drops the temporary
      (/repo/Projects/Core/Core/AST/TreeInterpreter.cpp:994-1000), so it changes nothing and is
      left out.
    - [x++] is the new value (TreeInterpreter.cpp:515-538), so [i = i++] in Stack.clear is [i++].
    - Reading a member of a null reference throws NullPointerException.
    - [==] and [<] on elements are parameters: they may be user-defined methods, but pure ones.
    - Sizes are 32-bit ints, overflow is undefined. *)
From Coq Require Import ZArith.
From Verif Require Import Base.
Open Scope Z_scope.

Definition int_max : Z := 2147483647.

Section Collections.
Context {V : Type}.

(** CollectionItem.os:7-18. *)
Record item := Item { i_val : V; i_next : N; i_prev : N }.
Record heap := Heap { h_items : gmap N item; h_free : N }.
(** mFirst, mLast, mSize: List.os:226-228 and the same members of Vector, DoubleLinkedList, Stack and Set. *)
Record coll := Coll { c_first : N; c_last : N; c_size : Z }.
Definition empty_heap : heap := Heap ∅ 1.
(** Constructor, List.os:11-13: default values. *)
Definition new_coll : coll := Coll 0 0 0.

Definition null (a : N) : bool := (a =? 0)%N.

Definition get (h : heap) (a : N) : res item :=
  match h_items h !! a with Some i => if null a then Throw "NullPointerException" else Ok i | None => Throw "NullPointerException" end.
(** new CollectionItem<T>( value ), CollectionItem.os:16-18. *)
Definition new_item (h : heap) (v : V) : N * heap :=
  (h_free h, Heap (<[h_free h := Item v 0 0]> (h_items h)) (h_free h + 1)).
(** x.next = y, x.previous = y. *)
Definition set_next (h : heap) (a b : N) : res heap :=
  let! i := get h a in Ok (Heap (<[a := Item (i_val i) b (i_prev i)]> (h_items h)) (h_free h)).
Definition set_prev (h : heap) (a b : N) : res heap :=
  let! i := get h a in Ok (Heap (<[a := Item (i_val i) (i_next i) b]> (h_items h)) (h_free h)).
Definition next_of (h : heap) (a : N) : res N := let! i := get h a in Ok (i_next i).

(** for ( int i = 0; i < n; i++ ) item = item.next; *)
Fixpoint walk (h : heap) (a : N) (n : nat) : res N :=
  match n with O => Ok a | S n => let! b := next_of h a in walk h b n end.

(** mSize++ *)
Definition grow (c : coll) : res coll :=
  if c_size c =? int_max then UB else Ok (Coll (c_first c) (c_last c) (c_size c + 1)).

(** at, List.os:31-42 (Vector.os:31-42, DoubleLinkedList.os:31-42, Stack.os:31-42, Set.os:32-43). *)
Definition at_ (h : heap) (c : coll) (i : Z) : res V :=
  if (i <? 0) || (c_size c <=? i) then Throw "OutOfBoundsException"
  else let! a := walk h (c_first c) (Z.to_nat i) in let! it := get h a in Ok (i_val it).

(** clear, List.os:44-53: the loop moves mFirst mSize times, then everything is reset. *)
Definition clear (h : heap) (c : coll) : res coll :=
  let! _ := walk h (c_first c) (Z.to_nat (c_size c)) in Ok (Coll 0 0 0).

(** empty, List.os:59-61. *)
Definition is_empty (c : coll) : bool := c_size c =? 0.

(** while( prev.next.next ) prev = prev.next; List.os:74-75. [f] bounds the number of rounds. *)
Fixpoint to_second_last (f : nat) (h : heap) (p : N) : res N :=
  match f with
  | O => Fuel
  | S f => let! a := next_of h p in let! b := next_of h a in if null b then Ok p else to_second_last f h a
  end.

(** erase, List.os:63-103 (identical in all collections). *)
Definition erase (f : nat) (h : heap) (c : coll) (i : Z) : res (heap * coll) :=
  if (i <? 0) || (c_size c <? i) then Throw "OutOfBoundsException"
  else
    let! r :=
      (if i =? 0 then let! a := next_of h (c_first c) in Ok (h, Coll a (c_last c) (c_size c))
       else if i =? c_size c - 1 then
         let! p := to_second_last f h (c_first c) in
         let! h' := set_next h p 0 in Ok (h', Coll (c_first c) p (c_size c))
       else
         let! p := walk h (c_first c) (Z.to_nat (i - 1)) in
         let! a := next_of h p in
         if null a then Ok (h, c)
         else let! b := next_of h a in let! h' := set_next h p b in Ok (h', c)) in
    let n := c_size (snd r) - 1 in
    Ok (fst r, if n =? 0 then Coll 0 0 0 else Coll (c_first (snd r)) (c_last (snd r)) n).

(** first, List.os:105-111; last, List.os:151-157. *)
Definition first (h : heap) (c : coll) : res V :=
  if c_size c =? 0 then Throw "OutOfBoundsException" else let! i := get h (c_first c) in Ok (i_val i).
Definition last_ (h : heap) (c : coll) : res V :=
  if c_size c =? 0 then Throw "OutOfBoundsException" else let! i := get h (c_last c) in Ok (i_val i).

(** indexOf, List.os:137-149: [n] rounds are left, [i] is the loop variable. *)
Fixpoint index_loop (eqv : V -> V -> bool) (h : heap) (a : N) (v : V) (i : Z) (n : nat) : res Z :=
  match n with
  | O => Ok (-1)
  | S n => let! it := get h a in
           if eqv (i_val it) v then Ok i else index_loop eqv h (i_next it) v (i + 1) n
  end.
Definition index_of (eqv : V -> V -> bool) (h : heap) (c : coll) (v : V) : res Z :=
  index_loop eqv h (c_first c) v 0 (Z.to_nat (c_size c)).
(** contains, List.os:55-57. *)
Definition contains (eqv : V -> V -> bool) (h : heap) (c : coll) (v : V) : res bool :=
  let! i := index_of eqv h c v in Ok (negb (i =? -1)).

(** pop_front, List.os:181-192, Vector.os:215-226, DoubleLinkedList.os:176-184. *)
Definition pop_front (h : heap) (c : coll) : res coll :=
  if c_size c <=? 0 then Throw "OutOfBoundsException"
  else let! a := next_of h (c_first c) in Ok (Coll a (c_last c) (c_size c - 1)).

(** pop_back, List.os:159-179, Vector.os:193-213: the deletes do nothing; for more than one
    element the walk ends at the last item, which becomes mLast. *)
Definition pop_back (h : heap) (c : coll) : res coll :=
  if c_size c <=? 0 then Throw "OutOfBoundsException"
  else if c_size c =? 1 then Ok (Coll (c_first c) (c_last c) (c_size c - 1))
  else let! a := walk h (c_first c) (Z.to_nat (c_size c - 1)) in
       let! _ := get h a in      (* delete item.next *)
       Ok (Coll (c_first c) a (c_size c - 1)).
(** DoubleLinkedList.os:157-174: the same without mLast = item. *)
Definition double_pop_back (h : heap) (c : coll) : res coll :=
  if c_size c <=? 0 then Throw "OutOfBoundsException"
  else if c_size c =? 1 then Ok (Coll (c_first c) (c_last c) (c_size c - 1))
  else let! a := walk h (c_first c) (Z.to_nat (c_size c - 1)) in
       let! _ := get h a in
       Ok (Coll (c_first c) (c_last c) (c_size c - 1)).
(** Stack::pop, Stack.os:147-171. *)
Definition pop (h : heap) (c : coll) : res (V * coll) :=
  if c_size c <=? 0 then Throw "OutOfBoundsException"
  else let! l := get h (c_last c) in
       let! c' := pop_back h c in Ok (i_val l, c').

(** push_back, List.os:194-208. *)
Definition list_push_back (h : heap) (c : coll) (v : V) : res (heap * coll) :=
  let '(a, h1) := new_item h v in
  let! p := (if c_size c =? 0 then Ok (h1, a) else let! h2 := set_next h1 (c_last c) a in Ok (h2, c_first c)) in
  let! h3 := set_prev (fst p) a (c_last c) in
  let! c' := grow (Coll (snd p) a (c_size c)) in Ok (h3, c').
(** push_back, Vector.os:228-241, DoubleLinkedList.os:186-200; Stack::push, Stack.os:173-186. *)
Definition push_back (h : heap) (c : coll) (v : V) : res (heap * coll) :=
  let '(a, h1) := new_item h v in
  let! p := (if c_size c =? 0 then Ok (h1, a) else let! h2 := set_next h1 (c_last c) a in Ok (h2, c_first c)) in
  let! c' := grow (Coll (snd p) a (c_size c)) in Ok (fst p, c').

(** push_front, List.os:210-224. *)
Definition list_push_front (h : heap) (c : coll) (v : V) : res (heap * coll) :=
  let '(a, h1) := new_item h v in
  let! p := (if c_size c =? 0 then Ok (h1, a)
             else let! h2 := set_next h1 a (c_first c) in
                  let! h3 := set_prev h2 (c_first c) a in Ok (h3, c_last c)) in
  let! c' := grow (Coll a (snd p) (c_size c)) in Ok (fst p, c').
(** push_front, Vector.os:243-254. *)
Definition vector_push_front (h : heap) (c : coll) (v : V) : res (heap * coll) :=
  let '(a, h1) := new_item h v in
  let! h2 := set_next h1 a (c_first c) in
  let! c' := grow (Coll a (if c_size c =? 0 then a else c_last c) (c_size c)) in Ok (h2, c').
(** push_front, DoubleLinkedList.os:202-210. *)
Definition double_push_front (h : heap) (c : coll) (v : V) : res (heap * coll) :=
  let '(a, h1) := new_item h v in
  let! h2 := set_next h1 a (c_first c) in
  let! c' := grow (Coll a (c_last c) (c_size c)) in Ok (h2, c').

(** Vector::insert, Vector.os:149-183. *)
Definition vector_insert (h : heap) (c : coll) (i : Z) (v : V) : res (heap * coll) :=
  if (i <? 0) || (c_size c <? i) then Throw "OutOfBoundsException"
  else
    let '(a, h1) := new_item h v in
    let! r :=
      (if null (c_first c) then Ok (h1, Coll a a (c_size c))
       else if i =? 0 then let! h2 := set_next h1 a (c_first c) in Ok (h2, Coll a (c_last c) (c_size c))
       else if i =? c_size c then
         let! h2 := set_next h1 (c_last c) a in Ok (h2, Coll (c_first c) a (c_size c))
       else
         let! t := walk h1 (c_first c) (Z.to_nat (i - 1)) in
         let! b := next_of h1 t in
         let! h2 := set_next h1 a b in
         let! h3 := set_next h2 t a in Ok (h3, c)) in
    let! c' := grow (snd r) in Ok (fst r, c').

(** Set::insert, Set.os:137-178. [lt] is operator<; [item == previous.next] compares references
    (Object.cpp:395-408). *)
Fixpoint insert_loop (lt : V -> V -> bool) (h : heap) (v : V) (prev tmp : N) (n : nat) : res N :=
  match n with
  | O => Ok prev
  | S n => let! it := get h tmp in
           if lt v (i_val it) then Ok prev else insert_loop lt h v tmp (i_next it) n
  end.
Definition set_insert (lt : V -> V -> bool) (dups : bool) (h : heap) (c : coll) (v : V) : res (heap * coll) :=
  let '(a, h1) := new_item h v in
  let! r :=
    (if null (c_first c) then Ok (h1, Coll a a (c_size c))
     else
       let! f := get h1 (c_first c) in
       if lt v (i_val f) then
         let! h2 := set_next h1 a (c_first c) in Ok (h2, Coll a (c_last c) (c_size c))
       else
         let! p := insert_loop lt h1 v 0 (c_first c) (Z.to_nat (c_size c)) in
         let! b := next_of h1 p in
         if negb dups && negb (null b) && (a =? b)%N then Throw "duplicate item"
         else
           let! h2 := set_next h1 a b in
           let! h3 := set_next h2 p a in Ok (h3, c)) in
  let! c' := grow (snd r) in Ok (fst r, c').

(** ** Iterators, Iterator.os *)
Record iter := Iter { it_cur : N; it_first : N }.
(** getIterator, List.os:114-116; Constructor, Iterator.os:9-11. *)
Definition iterator (c : coll) : iter := Iter 0 (c_first c).
(** hasNext, Iterator.os:21-31. *)
Definition has_next (h : heap) (it : iter) : res bool :=
  if null (it_first it) then Ok false
  else if null (it_cur it) then Ok (negb (null (it_first it)))
  else let! a := next_of h (it_cur it) in Ok (negb (null a)).
(** hasPrevious, Iterator.os:33-43. *)
Definition has_previous (h : heap) (it : iter) : res bool :=
  if null (it_first it) then Ok false
  else if null (it_cur it) then Ok (negb (null (it_first it)))
  else let! i := get h (it_cur it) in Ok (negb (null (i_prev i))).
(** next, Iterator.os:45-58. *)
Definition next (h : heap) (it : iter) : res (V * iter) :=
  let! b := has_next h it in
  if negb b then Throw "OutOfBoundsException"
  else
    let! a := (if null (it_cur it) then Ok (it_first it) else next_of h (it_cur it)) in
    let! i := get h a in Ok (i_val i, Iter a (it_first it)).
(** previous, Iterator.os:83-91. *)
Definition previous (h : heap) (it : iter) : res (V * iter) :=
  let! b := has_previous h it in
  if negb b then Throw "OutOfBoundsException"
  else let! c := get h (it_cur it) in
       let! i := get h (i_prev c) in Ok (i_val i, Iter (i_prev c) (it_first it)).
(** current, Iterator.os:13-19. *)
Definition current (h : heap) (it : iter) : res V :=
  if null (it_cur it) then Throw "Exception" else let! i := get h (it_cur it) in Ok (i_val i).
(** peek, Iterator.os:60-81, for positive offsets: [offset--] is the new value, so the loop
    takes [offset] steps. *)
Definition peek (h : heap) (it : iter) (offset : nat) : res V :=
  if null (it_cur it) && null (it_first it) then Throw "Exception"
  else let! a := walk h (it_cur it) offset in let! i := get h a in Ok (i_val i).

(** ReverseIterator, Iterator.os:125-222: [it_first] is mLastItem. *)
Definition reverse_iterator (c : coll) : iter := Iter 0 (c_last c).
(** hasNext, 138-148. *)
Definition r_has_next (h : heap) (it : iter) : res bool := has_previous h it.
(** next, 162-170. *)
Definition r_next (h : heap) (it : iter) : res (V * iter) :=
  let! b := r_has_next h it in
  if negb b then Throw "OutOfBoundsException"
  else let! c := get h (it_cur it) in
       let! i := get h (i_prev c) in Ok (i_val i, Iter (i_prev c) (it_first it)).

(** while ( it.hasNext() ) ... it.next() ...: what foreach does (TreeInterpreter.cpp:1081-1136).
    [f] bounds the number of rounds. *)
Fixpoint drain (f : nat) (h : heap) (it : iter) : res (list V * iter) :=
  match f with
  | O => Fuel
  | S f =>
      let! b := has_next h it in
      if b then let! p := next h it in
                let! r := drain f h (snd p) in Ok (fst p :: fst r, snd r)
      else Ok ([], it)
  end.

(** Copy, List.os:19-27: the copy has the same items. *)
Definition copy (c : coll) : coll := Coll (c_first c) (c_last c) (c_size c).

(** ** Operations as data *)
Inductive kind := KList | KVector | KDouble.
Inductive lop :=
| PushBack (v : V) | PushFront (v : V) | PopFront | PopBack | Erase (i : Z) | Insert (i : Z) (v : V) | Clear
| At (i : Z) | First | Last | IndexOf (v : V) | Contains (v : V) | Size | Empty | Elements.
(** What a call returns. Elements stands for a loop over the collection with a fresh iterator: the
    values next() returned while hasNext() was true, and what one more next() does. *)
Inductive answer := AUnit | AVal (v : V) | AInt (z : Z) | ABool (b : bool) | AList (l : list V) (after : res V).

Definition all_elements (f : nat) (h : heap) (c : coll) : res (heap * coll * answer) :=
  let! p := drain f h (iterator c) in Ok (h, c, AList (fst p) (let! q := next h (snd p) in Ok (fst q))).
Definition upd (r : res (heap * coll)) : res (heap * coll * answer) := let! p := r in Ok (fst p, snd p, AUnit).
Definition step (eqv : V -> V -> bool) (k : kind) (f : nat) (h : heap) (c : coll) (o : lop) : res (heap * coll * answer) :=
  match o with
  | PushBack v => upd (match k with KList => list_push_back h c v | _ => push_back h c v end)
  | PushFront v => upd (match k with
                        | KList => list_push_front h c v
                        | KVector => vector_push_front h c v
                        | KDouble => double_push_front h c v
                        end)
  | PopFront => let! c' := pop_front h c in Ok (h, c', AUnit)
  | PopBack => let! c' := (match k with KDouble => double_pop_back h c | _ => pop_back h c end) in Ok (h, c', AUnit)
  | Erase i => upd (erase f h c i)
  | Insert i v => match k with KVector => upd (vector_insert h c i v) | _ => Throw "unknown method" end
  | Clear => let! c' := clear h c in Ok (h, c', AUnit)
  | At i => let! v := at_ h c i in Ok (h, c, AVal v)
  | First => let! v := first h c in Ok (h, c, AVal v)
  | Last => let! v := last_ h c in Ok (h, c, AVal v)
  | IndexOf v => let! i := index_of eqv h c v in Ok (h, c, AInt i)
  | Contains v => let! b := contains eqv h c v in Ok (h, c, ABool b)
  | Size => Ok (h, c, AInt (c_size c))
  | Empty => Ok (h, c, ABool (is_empty c))
  | Elements => all_elements f h c
  end.

(** ** Stack, Stack.os *)
Inductive sop := Push (v : V) | Pop | Peek | SAt (i : Z) | SErase (i : Z) | SIndexOf (v : V) | SContains (v : V) | SSize | SEmpty | SClear.
Definition stack_step (eqv : V -> V -> bool) (f : nat) (h : heap) (c : coll) (o : sop) : res (heap * coll * answer) :=
  match o with
  | Push v => upd (push_back h c v)                                                (* 173-186 *)
  | Pop => let! p := pop h c in Ok (h, snd p, AVal (fst p))                        (* 147-171 *)
  | Peek => if c_size c <=? 0 then Throw "OutOfBoundsException"
            else let! i := get h (c_last c) in Ok (h, c, AVal (i_val i))           (* 139-145 *)
  | SAt i => let! v := at_ h c i in Ok (h, c, AVal v)
  | SErase i => upd (erase f h c i)
  | SIndexOf v => let! i := index_of eqv h c v in Ok (h, c, AInt i)
  | SContains v => let! b := contains eqv h c v in Ok (h, c, ABool b)
  | SSize => Ok (h, c, AInt (c_size c))
  | SEmpty => Ok (h, c, ABool (is_empty c))
  | SClear => let! c' := clear h c in Ok (h, c', AUnit)
  end.

(** ** Queue, Queue.os: a List, used through its methods. *)
Inductive qop := Enqueue (v : V) | Dequeue | QPeek | QAt (i : Z) | QSize | QEmpty | QClear | QElements.
Definition queue_step (f : nat) (h : heap) (c : coll) (o : qop) : res (heap * coll * answer) :=
  match o with
  | Enqueue v => upd (list_push_back h c v)                                        (* 51-53 *)
  | Dequeue =>                                                                     (* 35-45 *)
      if c_size c <=? 0 then Throw "OutOfBoundsException"
      else let! v := at_ h c 0 in let! c' := pop_front h c in Ok (h, c', AVal v)
  | QPeek => let! v := last_ h c in Ok (h, c, AVal v)                              (* 76-78 *)
  | QAt i => let! v := at_ h c i in Ok (h, c, AVal v)
  | QSize => Ok (h, c, AInt (c_size c))
  | QEmpty => Ok (h, c, ABool (is_empty c))
  | QClear => let! c' := clear h c in Ok (h, c', AUnit)
  | QElements => all_elements f h c
  end.

(** ** Set, Set.os *)
Inductive setop := SetInsert (v : V) | SetErase (i : Z) | SetAt (i : Z) | SetFirst | SetLast | SetIndexOf (v : V) | SetContains (v : V)
  | SetSize | SetEmpty | SetClear | SetElements.
Definition set_step (eqv lt : V -> V -> bool) (dups : bool) (f : nat) (h : heap) (c : coll) (o : setop) : res (heap * coll * answer) :=
  match o with
  | SetInsert v => upd (set_insert lt dups h c v)
  | SetErase i => upd (erase f h c i)
  | SetAt i => let! v := at_ h c i in Ok (h, c, AVal v)
  | SetFirst => let! v := first h c in Ok (h, c, AVal v)
  | SetLast => let! v := last_ h c in Ok (h, c, AVal v)
  | SetIndexOf v => let! i := index_of eqv h c v in Ok (h, c, AInt i)
  | SetContains v => let! b := contains eqv h c v in Ok (h, c, ABool b)
  | SetSize => Ok (h, c, AInt (c_size c))
  | SetEmpty => Ok (h, c, ABool (is_empty c))
  | SetClear => let! c' := clear h c in Ok (h, c', AUnit)
  | SetElements => all_elements f h c
  end.

(** ** Several collections
    A program working on several collections: which one, and the call. An exception is caught
    by the program, which goes on.
    Simplification: a NullPointerException in the middle of a call undoes the call; the theorems are
    about states where this does not happen. *)
Record sys := Sys { s_heap : heap; s_colls : list coll }.
Section Runner.
Context {O A : Type} (stp : heap -> coll -> O -> res (heap * coll * A)).
Definition sys_step (s : sys) (x : nat * O) : sys * res A :=
  match s_colls s !! fst x with
  | None => (s, Throw "unknown identifier")
  | Some c =>
      match stp (s_heap s) c (snd x) with
      | Ok (h, c', a) => (Sys h (<[fst x := c']> (s_colls s)), Ok a)
      | Throw e => (s, Throw e)
      | UB => (s, UB)
      | Fuel => (s, Fuel)
      end
  end.
Fixpoint sys_run (s : sys) (l : list (nat * O)) : list (res A) :=
  match l with
  | [] => []
  | x :: l => let '(s', a) := sys_step s x in a :: sys_run s' l
  end.
End Runner.
Definition start (n : nat) : sys := Sys empty_heap (replicate n new_coll).
End Collections.
Arguments item V : clear implicits.
Arguments heap V : clear implicits.
Arguments lop V : clear implicits.
Arguments sop V : clear implicits.
Arguments qop V : clear implicits.
Arguments setop V : clear implicits.
Arguments answer V : clear implicits.
Arguments sys V : clear implicits.

(** ** Map, Map.os: a List of Pair objects, used through its methods.
    The pairs are created by insert and not handed out except through iterators, so a pair is
    stored in its item; assigning pair.second changes the stored pair. *)
Section Map.
Context {K W : Type} (eqk : K -> K -> bool).
Notation pair := (prod K W).

(** foreach ( Object p : mItems ) if ( ( Pair<K, V> p ) == key ) ...: the item, its pair and how
    many items were before it (Map.os:34-42 and the like; Pair.os:27-29). *)
Fixpoint find_pair (f : nat) (h : heap pair) (it : iter) (k : K) (n : Z) : res (option (N * pair * Z)) :=
  match f with
  | O => Fuel
  | S f =>
      let! b := has_next h it in
      if b then
        let! p := next h it in
        if eqk (fst (fst p)) k then Ok (Some (it_cur (snd p), fst p, n)) else find_pair f h (snd p) k (n + 1)
      else Ok None
  end.
Definition set_value (h : heap pair) (a : N) (v : pair) : res (heap pair) :=
  let! i := get h a in Ok (Heap (<[a := Item v (i_next i) (i_prev i)]> (h_items h)) (h_free h)).

Inductive mop := MInsert (k : K) (v : W) | MPut (k : K) (v : W) | MRemove (k : K) | MGet (k : K) | MContains (k : K) | MIndexOf (k : K)
  | MSize | MEmpty | MClear.
Inductive manswer := MUnit | MVal (v : W) | MInt (z : Z) | MBool (b : bool).
Definition map_step (f : nat) (h : heap pair) (c : coll) (o : mop) : res (heap pair * coll * manswer) :=
  match o with
  | MInsert k v => let! p := list_push_back h c (k, v) in Ok (fst p, snd p, MUnit)            (* 93-95 *)
  | MPut k v =>                                                                               (* 101-112 *)
      let! r := find_pair f h (iterator c) k 0 in
      match r with
      | Some (a, p, _) => let! h' := set_value h a (fst p, v) in Ok (h', c, MUnit)
      | None => Throw "Exception"
      end
  | MRemove k =>                                                                              (* 114-125 *)
      let! r := find_pair f h (iterator c) k 0 in
      match r with
      | Some (_, _, i) => let! p := erase f h c i in Ok (fst p, snd p, MUnit)
      | None => Ok (h, c, MUnit)
      end
  | MGet k =>                                                                                 (* 52-60 *)
      let! r := find_pair f h (iterator c) k 0 in
      match r with Some (_, p, _) => Ok (h, c, MVal (snd p)) | None => Throw "Exception" end
  | MContains k =>                                                                            (* 34-42 *)
      let! r := find_pair f h (iterator c) k 0 in
      Ok (h, c, MBool (match r with Some _ => true | None => false end))
  | MIndexOf k =>                                                    (* 81-91: count is never increased *)
      let! r := find_pair f h (iterator c) k 0 in
      Ok (h, c, MInt (match r with Some _ => 0 | None => -1 end))
  | MSize => Ok (h, c, MInt (c_size c))
  | MEmpty => Ok (h, c, MBool (c_size c =? 0))
  | MClear => let! c' := clear h c in Ok (h, c', MUnit)
  end.
End Map.
Arguments mop K W : clear implicits.
Arguments manswer W : clear implicits.
