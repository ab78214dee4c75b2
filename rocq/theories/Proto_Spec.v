(** What the properties of prototypes talk about. *)
From Verif Require Import Base Text_Model Tok_Model Tok_Spec Proto_Model.

(** ** Types and their written form *)
Inductive ty := Ty (name : str) (args : list ty).
(** Texts with commas between them. *)
Fixpoint commas (l : list str) : str :=
  match l with [] => [] | [x] => x | x :: l' => x ++ $"," ++ commas l' end.
Definition written (name : str) (args : list str) : str :=
  match args with [] => name | _ => name ++ $"<" ++ commas args ++ $">" end.
Fixpoint ty_text (t : ty) : str := let 'Ty n args := t in written n (map ty_text args).
(** A name without the punctuation of written types. *)
Definition plain (s : str) : Prop := s <> [] /\ forall c, c ∈ s -> c <> chr 60 /\ c <> chr 62 /\ c <> chr 44.
Inductive well_formed : ty -> Prop :=
| wf_ty n args : plain n -> (forall a, a ∈ args -> well_formed a) -> well_formed (Ty n args).

(** ** Substitution *)
(** [x] stands for the type of the first constraint of that name; other names stand for themselves. *)
Inductive stands_for (l : list constraint) (x : str) : str -> Prop :=
| st_first l1 c l2 : l = l1 ++ c :: l2 -> c_design c = x -> (forall d, d ∈ l1 -> c_design d <> x) -> stands_for l x (c_run c)
| st_other : (forall d, d ∈ l -> c_design d <> x) -> stands_for l x x.

(** A word the tokenizer reads as an identifier. *)
Definition identifier (w : str) : Prop := is_word w /\ spelled w IDENTIFIER w.
