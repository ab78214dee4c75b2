(** Model of the reference counting memory.
    Code: /repo/Projects/Core/Core/VirtualMachine/Memory.cpp, Memory.h,
          /repo/Projects/Core/Core/Object.cpp (assignReference, ~Object),
          /repo/Projects/Core/Core/Runtime/Reference.cpp,
          /repo/Projects/Core/Core/Scope.cpp (deinit, called by ~Object). *)
From Verif Require Import Base.

(** Runtime::Reference, Reference.cpp:16-34: an address, 0 = null. *)
Notation addr := N (only parsing).

(** Reference::isValid, Reference.cpp:31-34. *)
Definition valid (a : addr) : bool := negb (a =? 0)%N.

(** Where a destructor statement can read a reference from / write it to.
    [SField i]: i-th member of the object under destruction,
    [SVar x]: a variable outside of it. *)
Inductive slot := SField (i : nat) | SVar (x : nat).
Inductive rsrc := RNull | RSlot (s : slot).

(** Statements of a Slang destructor, as far as the memory sees them
    (Object.cpp:213-234 runs arbitrary Slang code; here: assignments between
    members, outside variables and null, and taking a temporary reference to
    [this], e.g. by passing it to a method).
    Simplification: allocation inside destructors is not modelled. *)
Inductive dop := DAssign (dst : slot) (src : rsrc) | DTouchThis.

(** Memory::RefCount (Memory.h:43-53) together with the parts of the object it
    owns: [fields] are the reference members in symbol order, [dtor] its
    destructor. Every entry has an object: newObject is the only way to make one. *)
Record entry := Entry { count : N; fields : list addr; dtor : list dop }.

(** The memory map and next free address (Memory.h, Memory.cpp:23-26), the
    outside variables (Runtime::Object symbols of the running program holding a
    reference, Object.h mReference), and a log of the executed destructors. *)
Record mem := Mem { heap : gmap addr entry; next : N; vars : list addr; log : list addr }.

(** Memory::Memory, Memory.cpp:23-26, with [nv] null variables around. *)
Definition init (nv : nat) : mem := Mem ∅ 1 (replicate nv 0%N) [].

Definition set_heap (m : mem) (h : gmap addr entry) : mem :=
  Mem h (next m) (vars m) (log m).

(** Memory::add, Memory.cpp:33-46. [mCount++] on unsigned int. *)
Definition mem_add (m : mem) (a : addr) : res mem :=
  if negb (valid a) then Ok m
  else match heap m !! a with
       | None => Throw "invalid access"
       | Some e => Ok (set_heap m (<[a := Entry ((count e + 1) mod two32) (fields e) (dtor e)]> (heap m)))
       end.

(** Memory::get, Memory.cpp:84-92 (the object is identified with its entry). *)
Definition mem_get (m : mem) (a : addr) : option entry := heap m !! a.

(** Memory::reserveAddress, Memory.cpp:128-153, and Memory::newObject,
    Memory.cpp:98-108. 4294967295 = static_cast<unsigned int>(-1). The object
    has [n] reference members, all null, and destructor [d]. *)
Definition mem_new (m : mem) (n : nat) (d : list dop) : res (addr * mem) :=
  if (4294967295 <=? next m)%N then Throw "memory exhausted!"
  else Ok (next m,
           Mem (<[next m := Entry 0 (replicate n 0%N) d]> (heap m)) (next m + 1) (vars m) (log m)).

(** Reading the reference held by a slot; [a] is the object under destruction. *)
Definition read_slot (m : mem) (a : addr) (s : slot) : option addr :=
  match s with
  | SField i => match heap m !! a with Some e => fields e !! i | None => None end
  | SVar x => vars m !! x
  end.

Definition read_src (m : mem) (a : addr) (r : rsrc) : option addr :=
  match r with
  | RNull => Some 0%N
  | RSlot s => read_slot m a s
  end.

(** Overwriting mReference of a slot (Object.cpp:130 [mReference = ref]). *)
Definition write_slot (m : mem) (a : addr) (s : slot) (v : addr) : mem :=
  match s with
  | SField i =>
      match heap m !! a with
      | Some e => set_heap m (<[a := Entry (count e) (<[i := v]> (fields e)) (dtor e)]> (heap m))
      | None => m
      end
  | SVar x => Mem (heap m) (next m) (<[x := v]> (vars m)) (log m)
  end.

Section Destruction.
  (** [rem m b]: Memory::remove for the nested calls. *)
  Variable rem : mem -> addr -> res mem.

  (** Object::assignReference, Object.cpp:126-143: remember the old reference,
      store the new one, acquire the new one, then release the old one. *)
  Definition assign_ref (m : mem) (a : addr) (s : slot) (v : addr) : res mem :=
    match read_slot m a s with
    | None => Throw "unknown identifier"    (* no such variable or member *)
    | Some old =>
        let m1 := write_slot m a s v in
        let! m2 := mem_add m1 v in
        if valid old then rem m2 old else Ok m2
    end.

  (** One destructor statement. DTouchThis: a by-reference parameter object is
      assigned [this] (add) and destroyed on return (Object.cpp:52-57, remove). *)
  Definition run_dop (m : mem) (a : addr) (o : dop) : res mem :=
    match o with
    | DAssign dst src =>
        match read_src m a src with
        | None => Throw "unknown identifier"
        | Some v => assign_ref m a dst v
        end
    | DTouchThis => let! m1 := mem_add m a in rem m1 a
    end.

  Fixpoint run_dops (m : mem) (a : addr) (os : list dop) : res mem :=
    match os with
    | [] => Ok m
    | o :: os' => let! m1 := run_dop m a o in run_dops m1 a os'
    end.

  (** [delete mObject] destroys the members one after the other: ~MethodScope /
      MethodScope::deinit delete every member symbol, whose ~Object releases the
      reference it holds (Object.cpp:52-57).
      Simplification: the slot is cleared before the release; "base" sub-objects
      are not modelled. *)
  Fixpoint drop_fields (m : mem) (a : addr) (i n : nat) : res mem :=
    match n with
    | O => Ok m
    | S n' =>
        match read_slot m a (SField i) with
        | None => UB
        | Some old =>
            let m1 := write_slot m a (SField i) 0%N in
            let! m2 := (if valid old then rem m1 old else Ok m1) in
            drop_fields m2 a (S i) n'
        end
    end.

  (** Object::Destructor, Object.cpp:213-234: runs the destructor's statements; the log records each run. *)
  Definition run_destructor (m : mem) (a : addr) (e : entry) : res mem :=
    let m0 := Mem (heap m) (next m) (vars m) (log m ++ [a]) in run_dops m0 a (dtor e).

  (** Memory::deleteObject, Memory.cpp:66-82: Destructor(), delete, erase. *)
  Definition delete_object (m : mem) (a : addr) : res mem :=
    match heap m !! a with
    | None => Throw "invalid delete"
    | Some e =>
        let! m1 := run_destructor m a e in
        let! m2 := drop_fields m1 a 0 (length (fields e)) in
        Ok (set_heap m2 (delete a (heap m2)))
    end.
End Destruction.

(** Memory::remove, Memory.cpp:110-126. [mCount--] on unsigned int (wraps).
    Fuel bounds the recursion depth of nested destructions. *)
Fixpoint mem_remove (fuel : nat) (m : mem) (a : addr) : res mem :=
  match fuel with
  | O => Fuel
  | S fuel' =>
      if negb (valid a) then Ok m
      else match heap m !! a with
           | None => Throw "invalid access"
           | Some e =>
               let c := ((count e + (two32 - 1)) mod two32)%N in
               let m1 := set_heap m (<[a := Entry c (fields e) (dtor e)]> (heap m)) in
               if (c =? 0)%N then delete_object (mem_remove fuel') m1 a else Ok m1
           end
  end.

(** ** The memory API as a state machine (C01, C02): allocation of member-less
    objects and raw acquisition / release. *)
Inductive mop := MNew | MAdd (a : addr) | MRemove (a : addr).
#[global] Instance mop_eq_dec : EqDecision mop.
Proof. solve_decision. Defined.

Definition mstep (m : mem) (o : mop) : res mem :=
  match o with
  | MNew => let! p := mem_new m 0 [] in Ok (snd p)
  | MAdd a => mem_add m a
  | MRemove a => mem_remove 1 m a
  end.

Fixpoint mrun (m : mem) (os : list mop) : res mem :=
  match os with
  | [] => Ok m
  | o :: os' => let! m' := mstep m o in mrun m' os'
  end.

(** The addresses returned by the allocations of a history. *)
Fixpoint mnews (m : mem) (os : list mop) : list addr :=
  match os with
  | [] => []
  | o :: os' =>
      match o, mstep m o with
      | MNew, Ok m' => next m :: mnews m' os'
      | _, Ok m' => mnews m' os'
      | _, _ => []
      end
  end.

(** ** Programs that allocate objects and assign references (C03, C04).
    [GNew x n d]: [vars x = new Object] with [n] members and destructor [d]
    (the temporary is assigned to a variable: assignReference).
    [GSetVar x y]: variable := variable, [GNull x]: variable := null (also what
    leaving the variable's scope does: ~Object releases the reference),
    [GSetField x i y]: member i of the object in x := variable y,
    [GNullField x i], [GGetField x y i]: variable x := member i of object in y. *)
Inductive gop :=
| GNew (x n : nat) (d : list dop)
| GSetVar (x y : nat)
| GNull (x : nat)
| GSetField (x i y : nat)
| GNullField (x i : nat)
| GGetField (x y i : nat).

(** mThis dereference of a null object is rejected by the interpreter
    (TreeInterpreter.cpp NullPointerException); a variable or member that does
    not exist is rejected when its name is resolved. *)
Definition var_ref (m : mem) (x : nat) : res addr :=
  match vars m !! x with
  | None => Throw "unknown identifier"
  | Some a => Ok a
  end.

Definition deref (m : mem) (x : nat) : res addr :=
  let! a := var_ref m x in
  if valid a then
    match heap m !! a with Some _ => Ok a | None => UB end   (* dangling mThis *)
  else Throw "null pointer access".

Definition field_ref (m : mem) (a : addr) (i : nat) : res addr :=
  match read_slot m a (SField i) with
  | None => Throw "unknown identifier"
  | Some v => Ok v
  end.

Definition gstep (fuel : nat) (m : mem) (o : gop) : res mem :=
  let asg := assign_ref (mem_remove fuel) in
  match o with
  | GNew x n d =>
      let! tmp := var_ref m x in
      let! p := mem_new m n d in asg (snd p) (fst p) (SVar x) (fst p)
  | GSetVar x y => let! v := var_ref m y in asg m 0%N (SVar x) v
  | GNull x => asg m 0%N (SVar x) 0%N
  | GSetField x i y =>
      let! a := deref m x in let! v := var_ref m y in asg m a (SField i) v
  | GNullField x i => let! a := deref m x in asg m a (SField i) 0%N
  | GGetField x y i =>
      let! a := deref m y in let! v := field_ref m a i in asg m a (SVar x) v
  end.

(** A history; an operation that throws before it touches the memory (null
    pointer access, memory exhausted, unknown name) leaves the state as it is and execution
    continues (the exception is caught by the program). The exception "invalid
    access" of Memory::add / Memory::remove ends the history. *)
Fixpoint grun (fuel : nat) (m : mem) (os : list gop) : res mem :=
  match os with
  | [] => Ok m
  | o :: os' =>
      match gstep fuel m o with
      | Throw e => if String.eqb e "invalid access" then Throw e else grun fuel m os'
      | Ok m' => grun fuel m' os'
      | UB => UB
      | Fuel => Fuel
      end
  end.
