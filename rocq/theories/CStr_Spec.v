(** What the text functions promise. *)
From Verif Require Import Base SysStr_Spec.

(** [p] is what stands in front of the first zero byte of [s]. *)
Definition zero_byte : ascii := ascii_of_nat 0.
Definition seen (s p : str) : Prop := zero_byte ∉ p /\ (s = p \/ exists r, s = p ++ zero_byte :: r).
(** The order of a dictionary, by unsigned bytes: [a] ends early, or has the smaller byte at the first difference. *)
Definition before (a b : str) : Prop :=
  exists p, (a = p /\ exists y b', b = p ++ y :: b') \/
            (exists x y a' b', a = p ++ x :: a' /\ b = p ++ y :: b' /\ (N_of_ascii x < N_of_ascii y)%N).
(** The sign of an answer tells the order of two texts. *)
Definition tells_order (z : Z) (a b : str) : Prop :=
  (z = 0%Z <-> a = b) /\ ((z < 0)%Z <-> before a b) /\ ((0 < z)%Z <-> before b a).
(** The longest front of [s] whose characters satisfy [P] has length [n]. *)
Definition longest_front (P : ascii -> Prop) (s : str) (n : Z) : Prop :=
  exists p r, s = p ++ r /\ Z.of_nat (length p) = n /\ (forall c, c ∈ p -> P c) /\ (forall c r', r = c :: r' -> ~ P c).
(** [w] is the rest of [s] from the first (the last) character that satisfies [P]. *)
Definition from_first (P : ascii -> Prop) (s w : str) : Prop :=
  exists p c w', s = p ++ w /\ w = c :: w' /\ P c /\ (forall d, d ∈ p -> ~ P d).
Definition from_last (P : ascii -> Prop) (s w : str) : Prop :=
  exists p c w', s = p ++ w /\ w = c :: w' /\ P c /\ (forall d, d ∈ w' -> ~ P d).
(** Letters and their counterparts. *)
Definition capital (c : ascii) : Prop := (65 <= nat_of_ascii c <= 90)%nat.
Definition small (c : ascii) : Prop := (97 <= nat_of_ascii c <= 122)%nat.
Definition lowered (c d : ascii) : Prop :=
  (capital c /\ nat_of_ascii d = nat_of_ascii c + 32)%nat \/ (~ capital c /\ d = c).
Definition raised (c d : ascii) : Prop :=
  (small c /\ nat_of_ascii c = nat_of_ascii d + 32)%nat \/ (~ small c /\ d = c).
