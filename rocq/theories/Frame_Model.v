(** Model of stack frames, scopes and threads.
    Code: /repo/Projects/Core/Core/VirtualMachine/StackFrame.cpp, Threads.cpp, and the pushScope, popScope, initialize and
    finalize methods of AST/TreeInterpreter.cpp and AST/TreeGenerator.cpp that drive them. *)
From Verif Require Import Base Text_Model.

(** StackFrame::Scope, StackFrame.cpp:19-24. Scopes are named by a number. *)
Record sscope := SScope { ss_scope : N; ss_delete : bool; ss_break : bool }.
(** StackFrame, 27-32: the two stacks are std::lists used at the back; here the head of the list is the back.
    Token lists and parameters are texts; the return value is not modelled. *)
Record frame := Frame { f_level : N; f_params : list str; f_scope : N; f_scopes : list sscope; f_tokens : list (list str) }.
(** A thread: its frames (the head is the back of mStackFrames), with the scopes allocated so far (the next number, and
    the parent each was created with) and the scopes deleted so far. *)
Record thread := Thread { th_frames : list frame; th_next : N; th_parents : list (N * N); th_deleted : list N }.

(** delete s.mScope: deleting a scope twice is undefined. *)
Definition delete_scope (id : N) (t : thread) : res thread :=
  if bool_decide (id ∈ th_deleted t) then UB
  else Ok (Thread (th_frames t) (th_next t) (th_parents t) (id :: th_deleted t)).
Definition set_frames (fs : list frame) (t : thread) : thread := Thread fs (th_next t) (th_parents t) (th_deleted t).
Definition set_scopes (ss : list sscope) (f : frame) : frame := Frame (f_level f) (f_params f) (f_scope f) ss (f_tokens f).

(** StackFrame::popScope, 54-63, on the frame at the top of the thread. *)
Definition frame_pop_scope (t : thread) : res thread :=
  match th_frames t with
  | f :: fs =>
      match f_scopes f with
      | s :: ss =>
          let t' := set_frames (set_scopes ss f :: fs) t in
          if ss_delete s then delete_scope (ss_scope s) t' else Ok t'
      | [] => UB
      end
  | [] => UB
  end.
(** Thread::pushFrame, Threads.cpp:134-145, with StackFrame::pushScope, 70-73, and pushTokens, 75-80. *)
Definition push_frame (scope : N) (tokens : list str) (params : list str) (t : thread) : thread :=
  set_frames (Frame (N.of_nat (length (th_frames t))) params scope [SScope scope false false] [tokens] :: th_frames t) t.
(** Thread::popFrame, 116-125. *)
Definition pop_frame (t : thread) : res thread :=
  match th_frames t with
  | [] => UB
  | f :: fs =>
      match f_tokens f with
      | [] => UB
      | _ :: ts =>
          let! t' := frame_pop_scope (set_frames (Frame (f_level f) (f_params f) (f_scope f) (f_scopes f) ts :: fs) t) in
          Ok (set_frames (List.tl (th_frames t')) t')
      end
  end.
(** TreeInterpreter::pushScope, TreeInterpreter.cpp:836-844: without a scope a new one is made below the current one. *)
Definition push_scope (scope : option N) (t : thread) : res thread :=
  match th_frames t with
  | [] => UB
  | f :: fs =>
      match scope with
      | Some s => Ok (set_frames (set_scopes (SScope s false true :: f_scopes f) f :: fs) t)
      | None =>
          match f_scopes f with
          | [] => UB
          | top :: _ =>
              Ok (Thread (set_scopes (SScope (th_next t) true true :: f_scopes f) f :: fs) (th_next t + 1)
                    ((th_next t, ss_scope top) :: th_parents t) (th_deleted t))
          end
      end
  end.
Inductive fop := PushFrame (scope : N) (tokens params : list str) | PopFrame | PushScope (scope : option N) | PopScope.
Definition fstep (o : fop) (t : thread) : res thread :=
  match o with
  | PushFrame s ts ps => Ok (push_frame s ts ps t)
  | PopFrame => pop_frame t
  | PushScope s => push_scope s t
  | PopScope => frame_pop_scope t
  end.
Fixpoint frun (ops : list fop) (t : thread) : res thread :=
  match ops with [] => Ok t | o :: ops' => let! t' := fstep o t in frun ops' t' end.
(** A new thread; scopes made outside the thread have numbers below [n]. *)
Definition thread_init (n : N) : thread := Thread [] n [] [].

(** Thread::currentFrame, 38-45, and Thread::frame, 82-92. *)
Definition current_frame (t : thread) : option frame := List.head (th_frames t).
Definition frame_at (i : N) (t : thread) : option frame := reverse (th_frames t) !! N.to_nat i.
(** StackFrame::getScope, 44-47. *)
Definition current_scope (t : thread) : res N :=
  match th_frames t with f :: _ => match f_scopes f with s :: _ => Ok (ss_scope s) | [] => UB end | [] => UB end.

(** TreeGenerator::pushScope, TreeGenerator.cpp:2236-2245, and popScope, 566-569, on the flags alone: whether break and
    continue are allowed in the scope at the top. *)
Definition gen_push (allow : bool) (flags : list bool) : res (list bool) :=
  match flags with [] => UB | top :: _ => Ok ((allow || top) :: flags) end.
Definition gen_pop (flags : list bool) : res (list bool) := match flags with [] => UB | _ :: flags' => Ok flags' end.
Inductive gop := GPush (allow : bool) | GPop.
Fixpoint grun (ops : list gop) (flags : list bool) : res (list bool) :=
  match ops with
  | [] => Ok flags
  | GPush b :: ops' => let! f := gen_push b flags in grun ops' f
  | GPop :: ops' => let! f := gen_pop flags in grun ops' f
  end.
(** initialize, 221: the method's scope is pushed with both flags off. *)
Definition gen_init : list bool := [false].

(** Threads::createThread, Threads.cpp:159-168, getThread, 196-205, deleteThread, 183-189 (it does nothing) and deinit,
    170-181. A thread is named by the order of its creation. *)
Record threads := Threads { ts_map : list (N * N); ts_made : N }.
Definition create_thread (s : threads) : threads * N :=
  let id := N.of_nat (length (ts_map s)) in
  (* std::map::insert keeps an existing entry *)
  (Threads (if bool_decide (id ∈ map fst (ts_map s)) then ts_map s else (id, ts_made s) :: ts_map s) (ts_made s + 1), id).
Fixpoint assoc (k : N) (m : list (N * N)) : option N :=
  match m with [] => None | (k', v) :: m' => if (k' =? k)%N then Some v else assoc k m' end.
Definition get_thread (id : N) (s : threads) : res N :=
  match assoc id (ts_map s) with Some t => Ok t | None => Throw "RuntimeException" end.
Definition delete_thread (id : N) (s : threads) : res threads := let! _ := get_thread id s in Ok s.
Definition threads_deinit (s : threads) : threads := Threads [] (ts_made s).
