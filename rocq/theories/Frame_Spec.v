(** What pushing and popping frames and scopes means. *)
From Verif Require Import Base Frame_Model.

(** Every push is followed by its own pop. *)
Inductive balanced : list fop -> Prop :=
| bal_nil : balanced []
| bal_scope s inner rest : balanced inner -> balanced rest -> balanced (PushScope s :: inner ++ PopScope :: rest)
| bal_frame s ts ps inner rest : balanced inner -> balanced rest -> balanced (PushFrame s ts ps :: inner ++ PopFrame :: rest).

(** What is open: for every frame, innermost first, the number of scopes on its stack. *)
Definition depths := list nat.
(** No pop without its push: a frame starts with one scope, its method's; popping the frame takes that scope along. *)
Inductive legal : depths -> list fop -> depths -> Prop :=
| legal_nil ds : legal ds [] ds
| legal_frame ds s ts ps ops ds' : legal (1 :: ds)%nat ops ds' -> legal ds (PushFrame s ts ps :: ops) ds'
| legal_end d ds ops ds' : legal ds ops ds' -> legal (S d :: ds) (PopFrame :: ops) ds'
| legal_own d ds ops ds' : legal (S (S d) :: ds) ops ds' -> legal (S d :: ds) (PushScope None :: ops) ds'
| legal_given d ds s ops ds' : legal (S d :: ds) ops ds' -> legal (d :: ds) (PushScope (Some s) :: ops) ds'
| legal_pop d ds ops ds' : legal (d :: ds) ops ds' -> legal (S d :: ds) (PopScope :: ops) ds'.

(** What may happen inside one frame: the number of its open scopes before and after; scopes may stay open, inner frames
    come and go. *)
Inductive within : nat -> list fop -> nat -> Prop :=
| within_nil d : within d [] d
| within_push d d' s ops : within (S (S d)) ops d' -> within (S d) (PushScope s :: ops) d'
| within_pop d d' ops : within d ops d' -> within (S d) (PopScope :: ops) d'
| within_frame d d' e s ts ps inner rest : within 1 inner (S e) -> within d rest d' ->
    within d (PushFrame s ts ps :: inner ++ PopFrame :: rest) d'.

(** The flags asked for by the scopes that are open. *)
Fixpoint open_requests (ops : list gop) (open : list bool) : option (list bool) :=
  match ops with
  | [] => Some open
  | GPush b :: ops' => open_requests ops' (b :: open)
  | GPop :: ops' => match open with [] => None | _ :: open' => open_requests ops' open' end
  end.
