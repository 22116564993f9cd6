(** Model of Global/Enumerations.hpp: the enumerators, their numbers and Enum2String,
    and the menu of test/SOGA_Ackley.cpp:46-57. *)
From Coq Require Import List Arith ZArith Bool String Ascii.
From Verif Require Import Base SOGA.
Import ListNotations.
Open Scope string_scope.
Open Scope Z_scope.

Inductive kind := KRecord | KFitness | KContainer | KShape | KEncode | KSelect.
(** 33-37, 64-67, 97-101, 132-135, 165-171, 201-325: the enumerators (as written) with
    their numbers; 'S', 'E' and 'C' are 83, 69 and 67 in ASCII. *)
Definition enumerators (k : kind) : list (string * Z) :=
  match k with
  | KRecord => [("RECORD_FITNESS", 1); ("DONT_RECORD_FITNESS", 0)]
  | KFitness => [("FITNESS_LESS_BETTER", 0); ("FITNESS_GREATER_BETTER", 1)]
  | KContainer => [("Std", 83); ("Eigen", 69); ("Custom", 67)]
  | KShape => [("SQUARE_BOX", 0); ("RECTANGLE_BOX", 1)]
  | KEncode => [("Real", 0); ("Binary", 1); ("Symbolic", 2)]
  | KSelect => [("RouletteWheel", 0); ("Tournament", 1); ("Truncation", 2); ("MonteCarlo", 3); ("Probability", 4);
                ("LinearRank", 5); ("ExponentialRank", 6); ("Boltzmann", 7); ("StochasticUniversal", 8); ("EliteReserved", 9);
                ("RunTimeSelectMethod", 10)]
  end.
(** 51-58, 79-86, 115-124, 148-155, 180-189, 330-355 [Enum2String]; where the switch
    has no default, another value runs off the end of a function that returns a value. *)
Definition enum2String (k : kind) (v : Z) : res string :=
  match k with
  | KRecord => if v =? 1 then Ok "RECORD_FITNESS" else if v =? 0 then Ok "DONT_RECORD_FITNESS" else UB
  | KFitness => if v =? 0 then Ok "FITNESS_LESS_BETTER" else if v =? 1 then Ok "FITNESS_GREATER_BETTER" else UB
  | KContainer => if v =? 83 then Ok "C++ std vector/array" else if v =? 69 then Ok "Eigen Array" else Ok "Unknown custom types"
  | KShape => if v =? 1 then Ok "Non-square box" else if v =? 0 then Ok "Square box" else UB
  | KEncode => if v =? 0 then Ok "Real encoding" else if v =? 1 then Ok "Binary encoding" else if v =? 2 then Ok "Symbolic encoding" else UB
  | KSelect =>
      if v =? 0 then Ok "RouletteWheel" else if v =? 1 then Ok "Tournament" else if v =? 2 then Ok "Truncation"
      else if v =? 3 then Ok "MonteCarlo" else if v =? 4 then Ok "Probability" else if v =? 5 then Ok "LinearRank"
      else if v =? 6 then Ok "ExponentialRank" else if v =? 7 then Ok "Boltzmann" else if v =? 8 then Ok "StochasticUniversal"
      else if v =? 9 then Ok "EliteReserved" else Ok "RunTimeSelectMethod"
  end.
(** SOGASelecters.hpp, the switch of the run-time selector: SelectMethod(sm) for a number
    typed in; None is any other number. *)
Definition select_method (v : Z) : option method :=
  if v =? 0 then Some RouletteWheel else if v =? 1 then Some Tournament else if v =? 2 then Some Truncation
  else if v =? 3 then Some MonteCarlo else if v =? 4 then Some Probability else if v =? 5 then Some LinearRank
  else if v =? 6 then Some ExponentialRank else if v =? 7 then Some Boltzmann else if v =? 8 then Some StochasticUniversal
  else if v =? 9 then Some EliteReserved else None.
(** test/SOGA_Ackley.cpp:48-51: one line is the number, then the name. *)
Fixpoint menu_from (i : Z) (fuel : nat) : res (list (Z * string)) :=
  match fuel with
  | O => Fuel
  | S n => if i <? 10 then do s <- enum2String KSelect i; do t <- menu_from (i + 1) n; Ok ((i, s) :: t) else Ok []
  end.
Definition menu (fuel : nat) : res (list (Z * string)) := menu_from 0 fuel.
