(** C83: the rules of a Sudoku board. *)
From Verif Require Import Base Sudoku_Model.
From Coq Require Import ZArith.
Open Scope Z_scope.

(** ** What the rules say *)
(** On a board of n times n boxes with n times n cells. *)
Definition on_board (n x y : Z) : Prop := 1 <= x <= n * n /\ 1 <= y <= n * n.
Definition same_box (n x y x' y' : Z) : Prop := (x - 1) / n = (x' - 1) / n /\ (y - 1) / n = (y' - 1) / n.
Definition meet (n x y x' y' : Z) : Prop := x = x' \/ y = y' \/ same_box n x y x' y'.
(** No number is twice in a line, a row or a box. *)
Definition by_the_rules (n : Z) (f : Z -> Z -> Z) : Prop :=
  forall x y x' y', on_board n x y -> on_board n x' y' -> (x, y) <> (x', y') -> f x y <> 0 -> meet n x y x' y' -> f x y <> f x' y'.

(** ** Proofs *)
Lemma in_upto n x : In x (upto n) <-> 1 <= x <= n.
Proof.
  unfold upto. rewrite in_map_iff. split.
  - intros (k & <- & H). apply in_seq in H. lia.
  - intros H. exists (Z.to_nat x). split; [lia|]. apply in_seq. lia.
Qed.
Definition square (n : Z) (b : board) : Prop := size_x b = n /\ size_y b = n /\ repeat_ b = n.
Lemma cell_on n b x y : square n b -> on_board n x y -> cell b x y = Ok (value b x y).
Proof.
  intros (E1 & E2 & E3) [H1 H2]. unfold cell. rewrite E1, E2, E3.
  rewrite (proj2 (Z.leb_le 1 x)), (proj2 (Z.leb_le x _)), (proj2 (Z.leb_le 1 y)), (proj2 (Z.leb_le y _)) by lia. done.
Qed.
Lemma used_spec n b v l : square n b -> (forall p, In p l -> on_board n p.1 p.2) ->
  exists u, used l b v = Ok u /\ (u = true <-> exists p, In p l /\ value b p.1 p.2 = v).
Proof.
  intros Hb. induction l as [|[x y] l IH]; intros H; cbn [used].
  - exists false. split; [done|]. split; [done|]. by intros (p & [] & _).
  - rewrite (cell_on n) by (done || apply (H (x, y)); by left). cbn [rbind].
    destruct (Z.eqb_spec (value b x y) v) as [E|E].
    + exists true. split; [done|]. split; [|done]. intros _. exists (x, y). split; [by left|done].
    + destruct IH as (u & Eu & Hu); [intros p Hp; apply H; by right|]. exists u. split; [done|]. rewrite Hu. split.
      * intros (p & Hp & Ev). exists p. split; [by right|done].
      * intros (p & [<- |Hp] & Ev); [done|]. by exists p.
Qed.
Lemma box_range n x : 1 <= n -> 1 <= x <= n * n -> 0 <= (x - 1) / n <= n - 1.
Proof. intros Hn Hx. split; [apply Z.div_pos; lia|]. assert ((x - 1) / n < n); [apply Z.div_lt_upper_bound; lia|lia]. Qed.
Lemma in_box n b ox oy x y : 1 <= n -> square n b -> on_board n ox oy ->
  In (x, y) (box_cells b ox oy) <-> on_board n x y /\ same_box n x y ox oy.
Proof.
  intros Hn (E1 & E2 & E3) [Hx Hy]. unfold box_cells. rewrite E1, E2, E3. cbv zeta. rewrite !Z.quot_div_nonneg by lia.
  pose proof (box_range n ox Hn Hx) as Bx. pose proof (box_range n oy Hn Hy) as By.
  set (bx := (ox - 1) / n) in *. set (bY := (oy - 1) / n) in *. rewrite in_flat_map. split.
  - intros (j & Hj & H). apply in_map_iff in H as (i & [= <- <-] & Hi). apply in_upto in Hi, Hj.
    split; [split; nia|]. unfold same_box. fold bx bY.
    split; symmetry; [apply (Z.div_unique _ _ _ (i - 1))|apply (Z.div_unique _ _ _ (j - 1))]; lia.
  - intros [[H1 H2] [B1 B2]]. fold bx in B1. fold bY in B2.
    pose proof (Z.div_mod (x - 1) n ltac:(lia)) as Dx. pose proof (Z.mod_pos_bound (x - 1) n ltac:(lia)) as Mx.
    pose proof (Z.div_mod (y - 1) n ltac:(lia)) as Dy. pose proof (Z.mod_pos_bound (y - 1) n ltac:(lia)) as My.
    exists ((y - 1) mod n + 1). split; [apply in_upto; lia|]. apply in_map_iff. exists ((x - 1) mod n + 1).
    split; [|apply in_upto; lia]. f_equal; nia.
Qed.
Lemma is_safe_spec n b x y v : 1 <= n -> square n b -> on_board n x y ->
  exists s, is_safe b x y v = Ok s /\ (s = true <-> forall x' y', on_board n x' y' -> meet n x' y' x y -> value b x' y' <> v).
Proof.
  intros Hn Hb Hp. unfold is_safe, used_in_box, used_in_line, used_in_row.
  destruct (used_spec n b v (box_cells b x y) Hb) as (u1 & -> & H1).
  { intros [x' y'] H. by apply (in_box n b x y) in H as [H _]. }
  destruct (used_spec n b v (map (fun x => (x, y)) (upto (size_x b * repeat_ b))) Hb) as (u2 & -> & H2).
  { intros [x' y'] H. apply in_map_iff in H as (i & [= <- <-] & Hi). apply in_upto in Hi. destruct Hb as (E1 & _ & E3).
    rewrite E1, E3 in Hi. split; [done|apply Hp]. }
  destruct (used_spec n b v (map (fun y => (x, y)) (upto (size_y b * repeat_ b))) Hb) as (u3 & -> & H3).
  { intros [x' y'] H. apply in_map_iff in H as (i & [= <- <-] & Hi). apply in_upto in Hi. destruct Hb as (_ & E2 & E3).
    rewrite E2, E3 in Hi. split; [apply Hp|done]. }
  cbn [rbind]. eexists. split; [done|]. rewrite !andb_true_iff, !negb_true_iff, <- !not_true_iff_false, H1, H2, H3. split.
  - intros [[N1 N2] N3] x' y' O [-> |[-> |S]] E.
    + apply N3. exists (x, y'). split; [|done]. apply in_map_iff. exists y'. split; [done|]. apply in_upto.
      destruct Hb as (_ & -> & ->). apply O.
    + apply N2. exists (x', y). split; [|done]. apply in_map_iff. exists x'. split; [done|]. apply in_upto.
      destruct Hb as (-> & _ & ->). apply O.
    + apply N1. exists (x', y'). split; [|done]. by apply (in_box n).
  - intros H. split; [split|].
    + intros ([x' y'] & I & E). apply (in_box n) in I as [O S]; [|done|done|done]. apply (H x' y' O); [right; by right|done].
    + intros ([x' y'] & I & E). apply in_map_iff in I as (i & [= <- <-] & Hi). apply in_upto in Hi.
      destruct Hb as (E1 & _ & E3). rewrite E1, E3 in Hi. apply (H i y); [split; [done|apply Hp]|right; by left|done].
    + intros ([x' y'] & I & E). apply in_map_iff in I as (i & [= <- <-] & Hi). apply in_upto in Hi.
      destruct Hb as (_ & E2 & E3). rewrite E2, E3 in Hi. apply (H x i); [split; [apply Hp|done]|by left|done].
Qed.
Lemma meet_sym n x y x' y' : meet n x y x' y' -> meet n x' y' x y.
Proof. unfold meet, same_box. intuition congruence. Qed.

(** ** The theorems *)
(** A value is taken exactly if no cell of the line, the row and the box has it; then only that cell changes. *)
Theorem C83_set n b x y v : 1 <= n -> square n b -> on_board n x y ->
  ((exists b', board_set b x y v true = Ok b') <-> forall x' y', on_board n x' y' -> meet n x' y' x y -> value b x' y' <> v) /\
  (forall b', board_set b x y v true = Ok b' -> square n b' /\ value b' x y = v /\
     forall x' y', (x', y') <> (x, y) -> value b' x' y' = value b x' y').
Proof.
  intros Hn Hb Hp. destruct (is_safe_spec n b x y v Hn Hb Hp) as (s & E & Hs). unfold board_set. rewrite E. cbn [rbind]. split.
  - rewrite <- Hs. destruct s; [|split; [by intros (b' & H)|done]]. rewrite (cell_on n) by done. cbn [rbind]. split; eauto.
  - intros b' H. destruct s; [|done]. rewrite (cell_on n) in H by done. cbn [rbind] in H. injection H as <-.
    split; [done|]. cbn [value]. rewrite !Z.eqb_refl. split; [done|]. intros x' y' Hne.
    destruct (Z.eqb_spec x' x) as [-> |]; [|done]. destruct (Z.eqb_spec y' y) as [-> |]; [by destruct Hne|done].
Qed.
Print Assumptions C83_set.
Example C83_set_ex : square 3 (board_new 3 3 3) /\ on_board 3 9 4 /\
  match board_set (board_new 3 3 3) 9 4 7 true with Ok b => board_set b 8 5 7 true = Throw "Invalid value" | _ => False end.
Proof. by vm_compute. Qed.
(** Whatever is tried, a board that is filled with validation stays by the rules. *)
Theorem C83_rules n moves : 1 <= n -> Forall (fun m => on_board n m.1.1 m.1.2) moves ->
  by_the_rules n (value (play (board_new n n n) moves)).
Proof.
  intros Hn Hm.
  assert (forall b, square n b -> by_the_rules n (value b) -> by_the_rules n (value (play b moves))) as H; [|apply H; [done|by intros x y x' y' _ _ _ H0]].
  induction Hm as [|[[x y] v] moves O _ IH]; intros b Hb Hr; cbn [play]; [done|]. cbn in O.
  destruct (C83_set n b x y v Hn Hb O) as [Ha Hc].
  destruct (board_set b x y v true) as [b'| | |] eqn:E; try (by apply IH).
  destruct (Hc b' eq_refl) as (Hb' & Ev & Eo). apply IH; [done|].
  assert (forall x' y', on_board n x' y' -> meet n x' y' x y -> value b x' y' <> v) as Hf by (apply Ha; eauto).
  intros x1 y1 x2 y2 O1 O2 N Z0 M.
  destruct (decide ((x1, y1) = (x, y))) as [[= -> ->]|N1].
  - rewrite Ev, (Eo x2 y2) by congruence. intros Eq. apply (Hf x2 y2 O2); [by apply meet_sym|done].
  - destruct (decide ((x2, y2) = (x, y))) as [[= -> ->]|N2].
    + rewrite Ev, (Eo x1 y1) by done. by apply Hf.
    + rewrite (Eo x1 y1) in * by done. rewrite (Eo x2 y2) by done. by apply Hr.
Qed.
Print Assumptions C83_rules.
Example C83_rules_ex :
  let b := play (board_new 2 2 2) [(1, 1, 3); (2, 2, 3); (4, 1, 3); (3, 3, 3); (2, 1, 4)] in
  (value b 1 1, value b 2 2, value b 4 1, value b 3 3, value b 2 1) = (3, 0, 0, 3, 4).
Proof. by vm_compute. Qed.

(** isSane is false for every board, solved or not. *)
Theorem C83_sane_refuted n b : 1 <= n -> square n b -> is_sane b = Ok false.
Proof.
  intros Hn Hb. destruct Hb as (E1 & E2 & E3). unfold is_sane. rewrite E1, E2, E3.
  assert (exists l, upto (n * n) = 1 :: l) as (l & El).
  { unfold upto. destruct (Z.to_nat (n * n)) as [|k] eqn:Ek; [nia|]. cbn [seq map]. eauto. }
  rewrite El. cbn [flat_map map app sane_loop].
  assert (on_board n 1 1) as O by (split; nia). rewrite (cell_on n) by done. cbn [rbind].
  destruct (Z.eqb_spec (value b 1 1) 0); [done|].
  destruct (is_safe_spec n b 1 1 (value b 1 1) Hn) as (s & -> & Hs); [done|done|]. cbn [rbind].
  destruct s; [|done]. exfalso. apply (proj1 Hs eq_refl 1 1); [done|by left|done].
Qed.
Print Assumptions C83_sane_refuted.
(** 1 2 3 4 / 3 4 1 2 / 2 1 4 3 / 4 3 2 1 is a solved board. *)
Definition solved : list (Z * Z * Z) :=
  [(1, 1, 1); (2, 1, 2); (3, 1, 3); (4, 1, 4); (1, 2, 3); (2, 2, 4); (3, 2, 1); (4, 2, 2);
   (1, 3, 2); (2, 3, 1); (3, 3, 4); (4, 3, 3); (1, 4, 4); (2, 4, 3); (3, 4, 2); (4, 4, 1)].
Example C83_sane_refuted_ex : let b := play (board_new 2 2 2) solved in
  forallb (fun m => value b m.1.1 m.1.2 =? m.2) solved = true /\ is_sane b = Ok false.
Proof. by vm_compute. Qed.
(** Boxes that are not as wide as they are many are not looked at as a whole: two cells of a box may get the same value. *)
Theorem C83_box_refuted : exists b x y x' y' v,
  size_x b = 3 /\ size_y b = 2 /\ value b x y = v /\ (x - 1) / 3 = (x' - 1) / 3 /\ (y - 1) / 2 = (y' - 1) / 2 /\ x <> x' /\ y <> y' /\
  exists b', board_set b x' y' v true = Ok b' /\ value b' x y = v /\ value b' x' y' = v /\ v <> 0.
Proof.
  set (b := Board 3 2 2 (fun x y => if (x =? 3) && (y =? 1) then 5 else 0)).
  exists b, 3, 1, 1, 2, 5. repeat split; try (by vm_compute); try lia. eexists. split; [vm_compute; reflexivity|]. by vm_compute.
Qed.
Print Assumptions C83_box_refuted.
