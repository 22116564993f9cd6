(** Model of three programs in test/: testEncoder.cpp, MinMaxCompileTime.cpp and
    testFunctions.cpp.  Not modelled: the fixed texts between the values printed. *)
From Coq Require Import List Arith ZArith Reals Bool.
From Flocq Require Import Core BinarySingleNaN Bits.
From Flocq Require Binary.
From Verif Require Import Base Fl BinCode GlobalM Bench.
Import ListNotations.
Open Scope Z_scope.

(** * testEncoder.cpp *)
Inductive ch := Bit (b : bool) | Space.
(** 11-14: the mask starts at the highest bit and moves right. *)
Fixpoint fill_str (n : nat) (mask bin : Z) : list bool :=
  match n with O => [] | S k => negb (Z.land mask bin =? 0) :: fill_str k (Z.shiftr mask 1) bin end.
(** 16-23. *)
Fixpoint put_str (idx : nat) (s : list bool) (noSpace : bool) : list ch :=
  match s with
  | [] => []
  | b :: t => Bit b :: (if negb noSpace && (Nat.eqb idx 0 || Nat.eqb idx 11) then [Space] else []) ++ put_str (S idx) t noSpace
  end.
(** 6-26 and 28-48 [printBin] of an unsigned integer. *)
Definition printBin64 (bin : Z) (noSpace : bool) : list ch := put_str 0 (fill_str 64 (Z.shiftl 1 63) bin) noSpace.
Definition printBin32 (bin : Z) (noSpace : bool) : list ch := put_str 0 (fill_str 32 (Z.shiftl 1 31) bin) noSpace.
(** 50-56: the bits of a double and of a float in memory. *)
Definition stored64 (x : double) : Z := bits_of_b64 (Binary.BSN2B 53 1024 default_nan_pl64 x).
Definition stored32 (x : float) : Z := bits_of_b32 (Binary.BSN2B 24 128 default_nan_pl32 x).
(** "Correct val of" and "computed code of", for one number. *)
Definition compare64 (fuel : nat) (x : double) : res (list ch * list ch) := do c <- encode64 fuel x; Ok (printBin64 (stored64 x) false, printBin64 c false).
Definition compare32 (fuel : nat) (x : float) : res (list ch * list ch) := do c <- encode32 fuel x; Ok (printBin32 (stored32 x) false, printBin32 c false).
(** A decimal literal p/q, correctly rounded (what the compiler does). *)
Definition decimal_SF (prec emax : Z) (p q : positive) : SpecFloat.spec_float :=
  let '(mz, ez, lz) := SpecFloat.SFdiv_core_binary prec emax (Zpos p) 0 (Zpos q) 0 in binary_round_aux prec emax mode_NE false mz ez lz.
Definition decimal64 (p q : positive) : double := SF2B _ (proj1 (@Bdiv_correct_aux 53 1024 eq_refl eq_refl mode_NE false p 0 false q 0)).
Definition decimal32 (p q : positive) : float := SF2B _ (proj1 (@Bdiv_correct_aux 24 128 eq_refl eq_refl mode_NE false p 0 false q 0)).
(** 60, 66, 72, 78, 84 / 92, 98, 104, 110, 116. *)
Definition pow10 (k : N) : positive := match (10 ^ k)%N with Npos p => p | N0 => 1%positive end.
Definition doubles : list (positive * positive) :=
  [(152%positive, pow10 322); (314%positive, pow10 102); (1507%positive, pow10 3); (314%positive, pow10 2); ((314 * pow10 98)%positive, 1%positive)].
Definition floats : list (positive * positive) :=
  [(152%positive, pow10 34); (314%positive, pow10 12); (1507%positive, pow10 3); (314%positive, pow10 2); ((314 * pow10 8)%positive, 1%positive)].
(** 58-125. *)
Fixpoint mapr {A B} (f : A -> res B) (l : list A) : res (list B) := match l with [] => Ok [] | x :: t => do y <- f x; do r <- mapr f t; Ok (y :: r) end.
Definition encoder_main (fuel : nat) : res (list (list ch * list ch)) :=
  do a <- mapr (fun pq => compare64 fuel (decimal64 (fst pq) (snd pq))) doubles;
  do b <- mapr (fun pq => compare32 fuel (decimal32 (fst pq) (snd pq))) floats; Ok (a ++ b).

(** * MinMaxCompileTime.cpp:6-10 *)
Definition minmax_main : Z * Z := (minmax_min 1 [2; 3; 4; -114514; 6; 7; 8; 9; 5], minmax_max 1 [2; 1919810; 4; 5; 6; 7; 8; 9; 3]).

(** * testFunctions.cpp *)
Section Egg.
Context (O : num_ops).
(** 39-40 Eigen's setLinSpaced(250, -512, 512), as real arithmetic would have it;
    41-50: the columns of row r, the rows. *)
Definition point (i : nat) : num O := add O (lit O (-512) 0) (div O (mul O (lit O (Z.of_nat i) 0) (lit O 1024 0)) (lit O 249 0)).
Definition egg_row (x : num O) (ys : list (num O)) : res (list (num O)) := mapr (fun y => eggHolder O [x; y]) ys.
Definition egg_main : res (list (list (num O))) := let x := map point (seq 0 250) in mapr (fun xr => egg_row xr x) x.
End Egg.
