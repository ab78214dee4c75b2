(** Shared vocabulary of the model: text, outcomes, machine integers. *)
From Coq Require Export ZArith NArith Ascii Lia.
From stdpp Require Export gmap numbers option.
From stdpp Require Export base list.
From Coq Require String.
Export String.StringSyntax.
#[global] Open Scope list_scope.

(** C++ [std::string] and Slang source text: a list of characters. *)
Definition str := list ascii.

(** String literals of the model, written ["text"%s]. *)
Definition s2l (s : String.string) : str := String.list_ascii_of_string s.
Arguments s2l s%string_scope.
Notation "'$' s" := (s2l s) (at level 1, format "'$' s").

(** Outcome of a C++ call: a value, a C++/Slang exception (with a tag naming the
    exception class), undefined behaviour, or fuel exhaustion of a model
    recursion (the model's stand-in for non-termination / stack overflow). *)
Inductive res (A : Type) : Type :=
| Ok (a : A)
| Throw (e : String.string)
| UB
| Fuel.
Arguments Ok {A} a.
Arguments Throw {A} e%string_scope.
Arguments UB {A}.
Arguments Fuel {A}.

Definition rbind {A B} (r : res A) (f : A -> res B) : res B :=
  match r with
  | Ok a => f a
  | Throw e => Throw e
  | UB => UB
  | Fuel => Fuel
  end.
Notation "'let!' x ':=' r 'in' k" := (rbind r (fun x => k))
  (at level 200, x name, r at level 100, k at level 200).

Definition is_ok {A} (r : res A) : bool :=
  match r with Ok _ => true | _ => false end.

(** 2^n as an [N]. *)
Definition two32 : N := 4294967296.

(** Lexicographic order on strings: C++ [std::string::operator<] compares
    characters as unsigned bytes. *)
Fixpoint str_ltb (a b : str) : bool :=
  match a, b with
  | [], [] => false
  | [], _ :: _ => true
  | _ :: _, [] => false
  | x :: a', y :: b' =>
      if (N_of_ascii x <? N_of_ascii y)%N then true
      else if (N_of_ascii y <? N_of_ascii x)%N then false
      else str_ltb a' b'
  end.

Definition str_eqb (a b : str) : bool := bool_decide (a = b).
