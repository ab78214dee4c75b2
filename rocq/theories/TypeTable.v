(** The static operator table of the built-in types, generated row by row from
    the define calls of /repo/Projects/Core/Core/VirtualMachine/TypeSystem.cpp
    (initBool to initString, lines 94-855). One row is a run of consecutive define calls
    with the same left type and operator; the comment gives their lines. *)
From Verif Require Import Base Tok_Model.

(** Type names, /repo/Projects/Core/Core/Consts.h:98, 107-123. *)
Definition t_anonymous : str := $"<anonymous>".
Definition t_bool : str := $"bool".
Definition t_double : str := $"double".
Definition t_enum : str := $"enum".
Definition t_float : str := $"float".
Definition t_int16 : str := $"int16".
Definition t_int : str := $"int".
Definition t_int64 : str := $"int64".
Definition t_object : str := $"Object".
Definition t_string : str := $"string".
Definition t_void : str := $"void".
Definition t_unary : str := $"__unary__".

Definition row : Type := str * ttype * list (str * str).

Definition builtin_rows : list row := [
  (* 97-103 *) (t_bool, ASSIGN, [(t_bool, t_bool); (t_double, t_bool); (t_float, t_bool); (t_int16, t_bool); (t_int, t_bool); (t_int64, t_bool); (t_string, t_bool)]);
  (* 112-118 *) (t_bool, AND, [(t_bool, t_bool); (t_double, t_bool); (t_float, t_bool); (t_int16, t_bool); (t_int, t_bool); (t_int64, t_bool); (t_string, t_bool)]);
  (* 119-125 *) (t_bool, NAND, [(t_bool, t_bool); (t_double, t_bool); (t_float, t_bool); (t_int16, t_bool); (t_int, t_bool); (t_int64, t_bool); (t_string, t_bool)]);
  (* 126-132 *) (t_bool, NOR, [(t_bool, t_bool); (t_double, t_bool); (t_float, t_bool); (t_int16, t_bool); (t_int, t_bool); (t_int64, t_bool); (t_string, t_bool)]);
  (* 133-139 *) (t_bool, OR, [(t_bool, t_bool); (t_double, t_bool); (t_float, t_bool); (t_int16, t_bool); (t_int, t_bool); (t_int64, t_bool); (t_string, t_bool)]);
  (* 142-142 *) (t_bool, COMPARE_EQUAL, [(t_bool, t_bool)]);
  (* 143-143 *) (t_bool, COMPARE_UNEQUAL, [(t_bool, t_bool)]);
  (* 149-156 *) (t_bool, TYPECAST, [(t_bool, t_bool); (t_double, t_double); (t_float, t_float); (t_int16, t_int16); (t_int, t_int); (t_int64, t_int64); (t_string, t_string)]);
  (* 162-167 *) (t_double, ASSIGN, [(t_bool, t_double); (t_double, t_double); (t_float, t_double); (t_int16, t_double); (t_int, t_double); (t_int64, t_double)]);
  (* 170-174 *) (t_double, MATH_ADDITION, [(t_double, t_double); (t_float, t_double); (t_int16, t_double); (t_int, t_double); (t_int64, t_double)]);
  (* 175-179 *) (t_double, MATH_DIVIDE, [(t_double, t_double); (t_float, t_double); (t_int16, t_double); (t_int, t_double); (t_int64, t_double)]);
  (* 180-184 *) (t_double, MATH_MULTIPLY, [(t_double, t_double); (t_float, t_double); (t_int16, t_double); (t_int, t_double); (t_int64, t_double)]);
  (* 185-189 *) (t_double, MATH_SUBTRACT, [(t_double, t_double); (t_float, t_double); (t_int16, t_double); (t_int, t_double); (t_int64, t_double)]);
  (* 195-201 *) (t_double, AND, [(t_bool, t_bool); (t_double, t_bool); (t_float, t_bool); (t_int16, t_bool); (t_int, t_bool); (t_int64, t_bool); (t_string, t_bool)]);
  (* 202-208 *) (t_double, NAND, [(t_bool, t_bool); (t_double, t_bool); (t_float, t_bool); (t_int16, t_bool); (t_int, t_bool); (t_int64, t_bool); (t_string, t_bool)]);
  (* 209-215 *) (t_double, NOR, [(t_bool, t_bool); (t_double, t_bool); (t_float, t_bool); (t_int16, t_bool); (t_int, t_bool); (t_int64, t_bool); (t_string, t_bool)]);
  (* 216-222 *) (t_double, OR, [(t_bool, t_bool); (t_double, t_bool); (t_float, t_bool); (t_int16, t_bool); (t_int, t_bool); (t_int64, t_bool); (t_string, t_bool)]);
  (* 225-229 *) (t_double, COMPARE_EQUAL, [(t_double, t_bool); (t_float, t_bool); (t_int16, t_bool); (t_int, t_bool); (t_int64, t_bool)]);
  (* 230-234 *) (t_double, COMPARE_GREATER, [(t_double, t_bool); (t_float, t_bool); (t_int16, t_bool); (t_int, t_bool); (t_int64, t_bool)]);
  (* 235-239 *) (t_double, COMPARE_GREATER_EQUAL, [(t_double, t_bool); (t_float, t_bool); (t_int16, t_bool); (t_int, t_bool); (t_int64, t_bool)]);
  (* 240-244 *) (t_double, COMPARE_LESS, [(t_double, t_bool); (t_float, t_bool); (t_int16, t_bool); (t_int, t_bool); (t_int64, t_bool)]);
  (* 245-249 *) (t_double, COMPARE_LESS_EQUAL, [(t_double, t_bool); (t_float, t_bool); (t_int16, t_bool); (t_int, t_bool); (t_int64, t_bool)]);
  (* 250-254 *) (t_double, COMPARE_UNEQUAL, [(t_double, t_bool); (t_float, t_bool); (t_int16, t_bool); (t_int, t_bool); (t_int64, t_bool)]);
  (* 260-267 *) (t_double, TYPECAST, [(t_bool, t_bool); (t_double, t_double); (t_float, t_float); (t_int16, t_int16); (t_int, t_int); (t_int64, t_int64); (t_string, t_string)]);
  (* 270-270 *) (t_double, MATH_ADDITION, [(t_unary, t_double)]);
  (* 271-271 *) (t_double, MATH_SUBTRACT, [(t_unary, t_double)]);
  (* 277-277 *) (t_enum, ASSIGN, [(t_enum, t_enum)]);
  (* 289-296 *) (t_enum, TYPECAST, [(t_bool, t_bool); (t_double, t_double); (t_float, t_float); (t_int16, t_int16); (t_int, t_int); (t_int64, t_int64); (t_string, t_string)]);
  (* 305-310 *) (t_float, ASSIGN, [(t_bool, t_float); (t_double, t_float); (t_float, t_float); (t_int16, t_float); (t_int, t_float); (t_int64, t_float)]);
  (* 313-317 *) (t_float, MATH_ADDITION, [(t_double, t_float); (t_float, t_float); (t_int16, t_float); (t_int, t_float); (t_int64, t_float)]);
  (* 318-322 *) (t_float, MATH_DIVIDE, [(t_double, t_float); (t_float, t_float); (t_int16, t_float); (t_int, t_float); (t_int64, t_float)]);
  (* 323-327 *) (t_float, MATH_MULTIPLY, [(t_double, t_float); (t_float, t_float); (t_int16, t_float); (t_int, t_float); (t_int64, t_float)]);
  (* 328-332 *) (t_float, MATH_SUBTRACT, [(t_double, t_float); (t_float, t_float); (t_int16, t_float); (t_int, t_float); (t_int64, t_float)]);
  (* 338-344 *) (t_float, AND, [(t_bool, t_bool); (t_double, t_bool); (t_float, t_bool); (t_int16, t_bool); (t_int, t_bool); (t_int64, t_bool); (t_string, t_bool)]);
  (* 345-351 *) (t_float, NAND, [(t_bool, t_bool); (t_double, t_bool); (t_float, t_bool); (t_int16, t_bool); (t_int, t_bool); (t_int64, t_bool); (t_string, t_bool)]);
  (* 352-358 *) (t_float, NOR, [(t_bool, t_bool); (t_double, t_bool); (t_float, t_bool); (t_int16, t_bool); (t_int, t_bool); (t_int64, t_bool); (t_string, t_bool)]);
  (* 359-365 *) (t_float, OR, [(t_bool, t_bool); (t_double, t_bool); (t_float, t_bool); (t_int16, t_bool); (t_int, t_bool); (t_int64, t_bool); (t_string, t_bool)]);
  (* 368-372 *) (t_float, COMPARE_EQUAL, [(t_double, t_bool); (t_float, t_bool); (t_int16, t_bool); (t_int, t_bool); (t_int64, t_bool)]);
  (* 373-377 *) (t_float, COMPARE_GREATER, [(t_double, t_bool); (t_float, t_bool); (t_int16, t_bool); (t_int, t_bool); (t_int64, t_bool)]);
  (* 378-382 *) (t_float, COMPARE_GREATER_EQUAL, [(t_double, t_bool); (t_float, t_bool); (t_int16, t_bool); (t_int, t_bool); (t_int64, t_bool)]);
  (* 383-387 *) (t_float, COMPARE_LESS, [(t_double, t_bool); (t_float, t_bool); (t_int16, t_bool); (t_int, t_bool); (t_int64, t_bool)]);
  (* 388-392 *) (t_float, COMPARE_LESS_EQUAL, [(t_double, t_bool); (t_float, t_bool); (t_int16, t_bool); (t_int, t_bool); (t_int64, t_bool)]);
  (* 393-397 *) (t_float, COMPARE_UNEQUAL, [(t_double, t_bool); (t_float, t_bool); (t_int16, t_bool); (t_int, t_bool); (t_int64, t_bool)]);
  (* 403-410 *) (t_float, TYPECAST, [(t_bool, t_bool); (t_double, t_double); (t_float, t_float); (t_int16, t_int16); (t_int, t_int); (t_int64, t_int64); (t_string, t_string)]);
  (* 413-413 *) (t_float, MATH_ADDITION, [(t_unary, t_float)]);
  (* 414-414 *) (t_float, MATH_SUBTRACT, [(t_unary, t_float)]);
  (* 420-422 *) (t_int16, ASSIGN, [(t_int16, t_int16); (t_int, t_int16); (t_int64, t_int16)]);
  (* 425-429 *) (t_int16, MATH_ADDITION, [(t_double, t_double); (t_float, t_float); (t_int16, t_int16); (t_int, t_int); (t_int64, t_int64)]);
  (* 430-434 *) (t_int16, MATH_DIVIDE, [(t_double, t_double); (t_float, t_float); (t_int16, t_int16); (t_int, t_int); (t_int64, t_int64)]);
  (* 435-437 *) (t_int16, MATH_MODULO, [(t_int16, t_int16); (t_int, t_int); (t_int64, t_int64)]);
  (* 438-442 *) (t_int16, MATH_MULTIPLY, [(t_double, t_double); (t_float, t_float); (t_int16, t_int16); (t_int, t_int); (t_int64, t_int64)]);
  (* 443-447 *) (t_int16, MATH_SUBTRACT, [(t_double, t_double); (t_float, t_float); (t_int16, t_int16); (t_int, t_int); (t_int64, t_int64)]);
  (* 450-450 *) (t_int16, BITAND, [(t_int16, t_int16)]);
  (* 451-451 *) (t_int16, BITCOMPLEMENT, [(t_int16, t_int16)]);
  (* 452-452 *) (t_int16, BITOR, [(t_int16, t_int16)]);
  (* 455-461 *) (t_int16, AND, [(t_bool, t_bool); (t_double, t_bool); (t_float, t_bool); (t_int16, t_bool); (t_int, t_bool); (t_int64, t_bool); (t_string, t_bool)]);
  (* 462-468 *) (t_int16, NAND, [(t_bool, t_bool); (t_double, t_bool); (t_float, t_bool); (t_int16, t_bool); (t_int, t_bool); (t_int64, t_bool); (t_string, t_bool)]);
  (* 469-475 *) (t_int16, NOR, [(t_bool, t_bool); (t_double, t_bool); (t_float, t_bool); (t_int16, t_bool); (t_int, t_bool); (t_int64, t_bool); (t_string, t_bool)]);
  (* 476-482 *) (t_int16, OR, [(t_bool, t_bool); (t_double, t_bool); (t_float, t_bool); (t_int16, t_bool); (t_int, t_bool); (t_int64, t_bool); (t_string, t_bool)]);
  (* 485-485 *) (t_int16, COMPARE_EQUAL, [(t_int16, t_bool)]);
  (* 486-486 *) (t_int16, COMPARE_GREATER, [(t_int16, t_bool)]);
  (* 487-487 *) (t_int16, COMPARE_GREATER_EQUAL, [(t_int16, t_bool)]);
  (* 488-488 *) (t_int16, COMPARE_LESS, [(t_int16, t_bool)]);
  (* 489-489 *) (t_int16, COMPARE_LESS_EQUAL, [(t_int16, t_bool)]);
  (* 490-490 *) (t_int16, COMPARE_UNEQUAL, [(t_int16, t_bool)]);
  (* 496-503 *) (t_int16, TYPECAST, [(t_bool, t_bool); (t_double, t_double); (t_enum, t_enum); (t_float, t_float); (t_int16, t_int16); (t_int, t_int); (t_int64, t_int64); (t_string, t_string)]);
  (* 506-506 *) (t_int16, MATH_ADDITION, [(t_unary, t_int16)]);
  (* 507-507 *) (t_int16, MATH_SUBTRACT, [(t_unary, t_int16)]);
  (* 513-518 *) (t_int, ASSIGN, [(t_bool, t_int); (t_double, t_int); (t_float, t_int); (t_int16, t_int); (t_int, t_int); (t_int64, t_int)]);
  (* 521-525 *) (t_int, MATH_ADDITION, [(t_double, t_double); (t_float, t_float); (t_int16, t_int); (t_int, t_int); (t_int64, t_int)]);
  (* 526-530 *) (t_int, MATH_DIVIDE, [(t_double, t_double); (t_float, t_float); (t_int16, t_int); (t_int, t_int); (t_int64, t_int)]);
  (* 531-533 *) (t_int, MATH_MODULO, [(t_int16, t_int); (t_int, t_int); (t_int64, t_int)]);
  (* 534-538 *) (t_int, MATH_MULTIPLY, [(t_double, t_double); (t_float, t_float); (t_int16, t_int); (t_int, t_int); (t_int64, t_int)]);
  (* 539-543 *) (t_int, MATH_SUBTRACT, [(t_double, t_double); (t_float, t_float); (t_int16, t_int); (t_int, t_int); (t_int64, t_int)]);
  (* 546-546 *) (t_int, BITAND, [(t_int, t_int)]);
  (* 547-547 *) (t_int, BITCOMPLEMENT, [(t_int, t_int)]);
  (* 548-548 *) (t_int, BITOR, [(t_int, t_int)]);
  (* 551-557 *) (t_int, AND, [(t_bool, t_bool); (t_double, t_bool); (t_float, t_bool); (t_int16, t_bool); (t_int, t_bool); (t_int64, t_bool); (t_string, t_bool)]);
  (* 558-564 *) (t_int, NAND, [(t_bool, t_bool); (t_double, t_bool); (t_float, t_bool); (t_int16, t_bool); (t_int, t_bool); (t_int64, t_bool); (t_string, t_bool)]);
  (* 565-571 *) (t_int, NOR, [(t_bool, t_bool); (t_double, t_bool); (t_float, t_bool); (t_int16, t_bool); (t_int, t_bool); (t_int64, t_bool); (t_string, t_bool)]);
  (* 572-578 *) (t_int, OR, [(t_bool, t_bool); (t_double, t_bool); (t_float, t_bool); (t_int16, t_bool); (t_int, t_bool); (t_int64, t_bool); (t_string, t_bool)]);
  (* 581-585 *) (t_int, COMPARE_EQUAL, [(t_double, t_bool); (t_float, t_bool); (t_int16, t_bool); (t_int, t_bool); (t_int64, t_bool)]);
  (* 586-590 *) (t_int, COMPARE_GREATER, [(t_double, t_bool); (t_float, t_bool); (t_int16, t_bool); (t_int, t_bool); (t_int64, t_bool)]);
  (* 591-595 *) (t_int, COMPARE_GREATER_EQUAL, [(t_double, t_bool); (t_float, t_bool); (t_int16, t_bool); (t_int, t_bool); (t_int64, t_bool)]);
  (* 596-600 *) (t_int, COMPARE_LESS, [(t_double, t_bool); (t_float, t_bool); (t_int16, t_bool); (t_int, t_bool); (t_int64, t_bool)]);
  (* 601-605 *) (t_int, COMPARE_LESS_EQUAL, [(t_double, t_bool); (t_float, t_bool); (t_int16, t_bool); (t_int, t_bool); (t_int64, t_bool)]);
  (* 606-610 *) (t_int, COMPARE_UNEQUAL, [(t_double, t_bool); (t_float, t_bool); (t_int16, t_bool); (t_int, t_bool); (t_int64, t_bool)]);
  (* 616-623 *) (t_int, TYPECAST, [(t_bool, t_bool); (t_double, t_double); (t_enum, t_enum); (t_float, t_float); (t_int16, t_int16); (t_int, t_int); (t_int64, t_int64); (t_string, t_string)]);
  (* 626-626 *) (t_int, MATH_ADDITION, [(t_unary, t_int)]);
  (* 627-627 *) (t_int, MATH_SUBTRACT, [(t_unary, t_int)]);
  (* 633-638 *) (t_int64, ASSIGN, [(t_bool, t_int64); (t_double, t_int64); (t_float, t_int64); (t_int16, t_int64); (t_int, t_int64); (t_int64, t_int64)]);
  (* 641-645 *) (t_int64, MATH_ADDITION, [(t_double, t_double); (t_float, t_float); (t_int16, t_int64); (t_int, t_int64); (t_int64, t_int64)]);
  (* 646-650 *) (t_int64, MATH_DIVIDE, [(t_double, t_double); (t_float, t_float); (t_int16, t_int64); (t_int, t_int64); (t_int64, t_int64)]);
  (* 651-653 *) (t_int64, MATH_MODULO, [(t_int16, t_int64); (t_int, t_int64); (t_int64, t_int64)]);
  (* 654-658 *) (t_int64, MATH_MULTIPLY, [(t_double, t_double); (t_float, t_float); (t_int16, t_int64); (t_int, t_int64); (t_int64, t_int64)]);
  (* 659-663 *) (t_int64, MATH_SUBTRACT, [(t_double, t_double); (t_float, t_float); (t_int16, t_int64); (t_int, t_int64); (t_int64, t_int64)]);
  (* 666-666 *) (t_int64, BITAND, [(t_int64, t_int64)]);
  (* 667-667 *) (t_int64, BITCOMPLEMENT, [(t_int64, t_int64)]);
  (* 668-668 *) (t_int64, BITOR, [(t_int64, t_int64)]);
  (* 671-677 *) (t_int64, AND, [(t_bool, t_bool); (t_double, t_bool); (t_float, t_bool); (t_int16, t_bool); (t_int, t_bool); (t_int64, t_bool); (t_string, t_bool)]);
  (* 678-684 *) (t_int64, NAND, [(t_bool, t_bool); (t_double, t_bool); (t_float, t_bool); (t_int16, t_bool); (t_int, t_bool); (t_int64, t_bool); (t_string, t_bool)]);
  (* 685-691 *) (t_int64, NOR, [(t_bool, t_bool); (t_double, t_bool); (t_float, t_bool); (t_int16, t_bool); (t_int, t_bool); (t_int64, t_bool); (t_string, t_bool)]);
  (* 692-698 *) (t_int64, OR, [(t_bool, t_bool); (t_double, t_bool); (t_float, t_bool); (t_int16, t_bool); (t_int, t_bool); (t_int64, t_bool); (t_string, t_bool)]);
  (* 701-705 *) (t_int64, COMPARE_EQUAL, [(t_double, t_bool); (t_float, t_bool); (t_int16, t_bool); (t_int, t_bool); (t_int64, t_bool)]);
  (* 706-710 *) (t_int64, COMPARE_GREATER, [(t_double, t_bool); (t_float, t_bool); (t_int16, t_bool); (t_int, t_bool); (t_int64, t_bool)]);
  (* 711-715 *) (t_int64, COMPARE_GREATER_EQUAL, [(t_double, t_bool); (t_float, t_bool); (t_int16, t_bool); (t_int, t_bool); (t_int64, t_bool)]);
  (* 716-720 *) (t_int64, COMPARE_LESS, [(t_double, t_bool); (t_float, t_bool); (t_int16, t_bool); (t_int, t_bool); (t_int64, t_bool)]);
  (* 721-725 *) (t_int64, COMPARE_LESS_EQUAL, [(t_double, t_bool); (t_float, t_bool); (t_int16, t_bool); (t_int, t_bool); (t_int64, t_bool)]);
  (* 726-730 *) (t_int64, COMPARE_UNEQUAL, [(t_double, t_bool); (t_float, t_bool); (t_int16, t_bool); (t_int, t_bool); (t_int64, t_bool)]);
  (* 736-743 *) (t_int64, TYPECAST, [(t_bool, t_bool); (t_double, t_double); (t_enum, t_enum); (t_float, t_float); (t_int16, t_int16); (t_int, t_int); (t_int64, t_int64); (t_string, t_string)]);
  (* 746-746 *) (t_int64, MATH_ADDITION, [(t_unary, t_int64)]);
  (* 747-747 *) (t_int64, MATH_SUBTRACT, [(t_unary, t_int64)]);
  (* 753-753 *) (t_object, ASSIGN, [(t_object, t_object)]);
  (* 762-762 *) (t_object, COMPARE_EQUAL, [(t_object, t_object)]);
  (* 763-763 *) (t_object, COMPARE_UNEQUAL, [(t_object, t_object)]);
  (* 769-769 *) (t_object, TYPECAST, [(t_object, t_object)]);
  (* 778-784 *) (t_string, ASSIGN, [(t_bool, t_string); (t_double, t_string); (t_float, t_string); (t_int16, t_string); (t_int, t_string); (t_int64, t_string); (t_string, t_string)]);
  (* 787-793 *) (t_string, MATH_ADDITION, [(t_bool, t_string); (t_double, t_string); (t_float, t_string); (t_int16, t_string); (t_int, t_string); (t_int64, t_string); (t_string, t_string)]);
  (* 799-805 *) (t_string, AND, [(t_bool, t_bool); (t_double, t_bool); (t_float, t_bool); (t_int16, t_bool); (t_int, t_bool); (t_int, t_bool); (t_string, t_bool)]);
  (* 806-812 *) (t_string, NAND, [(t_bool, t_bool); (t_double, t_bool); (t_float, t_bool); (t_int16, t_bool); (t_int, t_bool); (t_int64, t_bool); (t_string, t_bool)]);
  (* 813-819 *) (t_string, NOR, [(t_bool, t_bool); (t_double, t_bool); (t_float, t_bool); (t_int16, t_bool); (t_int, t_bool); (t_int64, t_bool); (t_string, t_bool)]);
  (* 820-826 *) (t_string, OR, [(t_bool, t_bool); (t_double, t_bool); (t_float, t_bool); (t_int16, t_bool); (t_int, t_bool); (t_int64, t_bool); (t_string, t_bool)]);
  (* 829-829 *) (t_string, COMPARE_EQUAL, [(t_string, t_bool)]);
  (* 830-830 *) (t_string, COMPARE_GREATER, [(t_string, t_bool)]);
  (* 831-831 *) (t_string, COMPARE_GREATER_EQUAL, [(t_string, t_bool)]);
  (* 832-832 *) (t_string, COMPARE_LESS, [(t_string, t_bool)]);
  (* 833-833 *) (t_string, COMPARE_LESS_EQUAL, [(t_string, t_bool)]);
  (* 834-834 *) (t_string, COMPARE_UNEQUAL, [(t_string, t_bool)]);
  (* 837-843 *) (t_string, OPERATOR_SHIFT_LEFT, [(t_bool, t_string); (t_double, t_string); (t_float, t_string); (t_int16, t_string); (t_int, t_string); (t_int64, t_string); (t_string, t_string)]);
  (* 846-853 *) (t_string, TYPECAST, [(t_bool, t_bool); (t_double, t_double); (t_float, t_float); (t_int16, t_int16); (t_int, t_int); (t_int64, t_int64); (t_string, t_string)])
].
