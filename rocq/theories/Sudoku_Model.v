(** Model of the board of SudokuSolver: which values may be set.
    Code: /repo/Projects/Library/SudokuSolver/Board.os (a Slang program, followed statement by statement).
    Simplified: the map from "x,y" to cells is a function of the two numbers, with an exception outside of the board; sizes are
    so small that no int overflows; what is printed is left out.
    [!cell.Value] of isSane is a comparison with 0. Not modelled: the search (calculatePossibleValues, solve), Copy, toString. *)
From Verif Require Import Base.
From Coq Require Import ZArith.
Open Scope Z_scope.

(** SizeX, SizeY, Repeat and the Value of every cell. *)
Record board := Board { size_x : Z; size_y : Z; repeat_ : Z; value : Z -> Z -> Z }.
(** Constructor, Board.os:12-24; a new cell has the value 0. *)
Definition board_new (sx sy r : Z) : board := Board sx sy r (fun _ _ => 0).
(** The numbers of a range 1..n that is not empty (C59). *)
Definition upto (n : Z) : list Z := map Z.of_nat (seq 1 (Z.to_nat n)).
(** Cells.get, Map.os: a key that is not there throws. *)
Definition cell (b : board) (x y : Z) : res Z :=
  if (1 <=? x) && (x <=? size_x b * repeat_ b) && (1 <=? y) && (y <=? size_y b * repeat_ b)
  then Ok (value b x y) else Throw "OutOfBoundsException".
(** A loop that returns true at the first cell with the value. *)
Fixpoint used (l : list (Z * Z)) (b : board) (v : Z) : res bool :=
  match l with
  | [] => Ok false
  | (x, y) :: r => let! c := cell b x y in if c =? v then Ok true else used r b v
  end.
(** isUsedInBox, 115-130: the outer loop is over y. *)
Definition box_cells (b : board) (ox oy : Z) : list (Z * Z) :=
  let bx := Z.quot (ox - 1) (size_x b) in
  let by_ := Z.quot (oy - 1) (size_y b) in
  flat_map (fun y => map (fun x => (bx * size_x b + x, by_ * size_y b + y)) (upto (repeat_ b))) (upto (repeat_ b)).
Definition used_in_box (b : board) (ox oy v : Z) : res bool := used (box_cells b ox oy) b v.
(** isUsedInLine, 132-142. *)
Definition used_in_line (b : board) (y v : Z) : res bool := used (map (fun x => (x, y)) (upto (size_x b * repeat_ b))) b v.
(** isUsedInRow, 144-154. *)
Definition used_in_row (b : board) (x v : Z) : res bool := used (map (fun y => (x, y)) (upto (size_y b * repeat_ b))) b v.
(** isSafe, 93-97. *)
Definition is_safe (b : board) (x y v : Z) : res bool :=
  let! p := used_in_box b x y v in
  let! q := used_in_line b y v in
  let! r := used_in_row b x v in
  Ok (negb p && negb q && negb r).
(** set, 156-167. *)
Definition board_set (b : board) (x y v : Z) (validate : bool) : res board :=
  let! ok := (if validate then is_safe b x y v else Ok true) in
  if ok then
    let! _ := cell b x y in
    Ok (Board (size_x b) (size_y b) (repeat_ b) (fun x' y' => if (x' =? x) && (y' =? y) then v else value b x' y'))
  else Throw "Invalid value".
(** isSane, 99-113. *)
Fixpoint sane_loop (l : list (Z * Z)) (b : board) : res bool :=
  match l with
  | [] => Ok true
  | (x, y) :: r =>
      let! c := cell b x y in
      if c =? 0 then Ok false
      else let! s := is_safe b x y c in if s then sane_loop r b else Ok false
  end.
Definition is_sane (b : board) : res bool :=
  sane_loop (flat_map (fun y => map (fun x => (x, y)) (upto (size_x b * repeat_ b))) (upto (size_y b * repeat_ b))) b.
(** A program that sets cells with validation and catches what is thrown. *)
Fixpoint play (b : board) (moves : list (Z * Z * Z)) : board :=
  match moves with
  | [] => b
  | (x, y, v) :: r => match board_set b x y v true with Ok b' => play b' r | _ => play b r end
  end.
