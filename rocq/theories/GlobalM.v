(** Model of Global/LogisticChaos.hpp, Global/HeuMaths.hpp and
    Global/TemplateFloat.hpp.  (Global/Randoms.hpp is in Rng.v.) *)
From Coq Require Import List Arith ZArith Bool.
From Flocq Require Import BinarySingleNaN.
From Verif Require Import Base Fl.
Import ListNotations.
Open Scope Z_scope.

(** * LogisticChaos.hpp *)
Definition miu : double := d_of_Z 4.                                   (* 106 *)
(** 64-67 [operator()]: [_value *= miu * (1 - _value)]; also the body of
    [iterate], 99-101. *)
Definition chaos_next (x : double) : double := fmul x (fmul miu (fsub d1 x)).
(** 98-102 [iterate]. *)
Fixpoint chaos_iterate (n : nat) (x : double) : double :=
  match n with O => x | S m => chaos_iterate m (chaos_next x) end.
(** 88: [miu * dst[i-1] * (1 - dst[i-1])]. *)
Definition chaos_seq_next (x : double) : double := fmul (fmul miu x) (fsub d1 x).
(** 84-91 [makeSequence]: what is written to dst, and the new _value. *)
Fixpoint chaos_fill (n : nat) (prev : double) : list double :=
  match n with O => [] | S m => let y := chaos_seq_next prev in y :: chaos_fill m y end.
Definition chaos_makeSequence (n : nat) (x : double) : list double * double :=
  match n with
  | O => ([], x)
  | S m => let y := chaos_next x in
           let l := y :: chaos_fill m y in (l, last l y)
  end.

(** * HeuMaths.hpp *)
(** 66-71 [fractorial], for num_t = size_t. *)
Fixpoint fractorial (n : nat) : Z :=
  match n with
  | S (S _ as m) => wrap64 (Z.of_nat n * fractorial m)
  | _ => 1
  end.
(** 84-90 [NchooseK] for num_t = size_t; the recursion is not structural. *)
Fixpoint NchooseK (fuel : nat) (N K : Z) : res Z :=
  if N <? wrap64 (K * 2) then
    match fuel with O => Fuel | S f => NchooseK f N (wrap64 (N - K)) end
  else
    let den := wrap64 (fractorial (Z.to_nat K) * fractorial (Z.to_nat (wrap64 (N - K)))) in
    if den =? 0 then UB else Ok (fractorial (Z.to_nat N) / den).

(** 148-177 [imp_min], [imp_max] over any type with an order given by >= and <=. *)
Section MinMax.
Context {T : Type} (ge le : T -> T -> bool).
Definition imp_min2 (a b : T) : T := if ge a b then b else a.
Definition imp_max2 (a b : T) : T := if le a b then b else a.
(** 191-209 [min], [max]: at least two arguments. *)
Definition heu_min (a b : T) (args : list T) : T := fold_left imp_min2 args (imp_min2 a b).
Definition heu_max (a b : T) (args : list T) : T := fold_left imp_max2 args (imp_max2 a b).
End MinMax.

(** 219-246 [_impl_minmax] (compile time, integers). *)
Fixpoint minmax_min (v : Z) (vs : list Z) : Z :=
  match vs with
  | [] => v
  | [b] => if b <? v then b else v
  | w :: t => if v <? minmax_min w t then v else minmax_min w t
  end.
Fixpoint minmax_max (v : Z) (vs : list Z) : Z :=
  match vs with
  | [] => v
  | [b] => if v <? b then b else v
  | w :: t => if minmax_max w t <? v then v else minmax_max w t
  end.

(** 46-58 [sign]. *)
Definition heu_sign (x : double) : Z := if flt d0 x then 1 else if flt x d0 then -1 else 0.

(** * TemplateFloat.hpp *)
(** Conversion of an int32_t / int64_t to uint64_t. *)
Definition to_u64 (z : Z) : Z := wrap64 z.
(** 75-82 [DivEncode]: a is an int32_t, b a uint32_t. *)
Definition DivEncode (a b : Z) : Z := Z.lor (wrap64 (Z.shiftl (to_u64 a) 32)) b.
(** 95-101 [DivDecode]. *)
Definition DivNumerator (dc : Z) : Z := to_int (Z.shiftr dc 32).
Definition DivDenominator (dc : Z) : Z := Z.land dc 4294967295.
Definition DivReal (dc : Z) : double := fdiv (d_of_Z (DivNumerator dc)) (d_of_Z (DivDenominator dc)).

(** 126-139 [PowEncode_amplifier]; template recursion, at most 17 levels. *)
Definition pow_threshold : Z := 10000000000000000.
Fixpoint amplify (fuel : nat) (v : Z) : Z :=
  if v =? 0 then 0 else
  match fuel with
  | O => v
  | S f => if v <? pow_threshold then amplify f (wrap64 (10 * v)) else v
  end.
(** 175-197 [PowEncode]; None when a static_assert rejects the arguments. *)
Definition PowEncode (significant power : Z) : option Z :=
  let neg := significant <? 0 in
  let absVal := to_u64 (if neg then - significant else significant) in
  if absVal / 10 <? pow_threshold then
    if (power <=? 255) && (-255 <=? power) then
      let recorded := amplify 17 absVal in
      let powneg := power <? 0 in
      let absPow := Z.modulo (if powneg then - power else power) 256 in
      let upper := Z.lor (Z.shiftl (Z.b2z neg) 63) (wrap64 (Z.shiftl recorded 9)) in
      let lower := Z.lor (Z.shiftl (Z.b2z powneg) 8) absPow in
      Some (Z.lor upper lower)
    else None
  else None.
(** 214-235 [PowDecode]: sign, significand field, exponent. *)
Definition PowSigMask : Z := Z.shiftl (Z.shiftr (wrap64 (Z.shiftl (two64 - 1) 1)) 10) 9.
Definition PowNegative (code : Z) : bool := negb (Z.land (Z.shiftl 1 63) code =? 0).
Definition PowSig (code : Z) : Z :=
  let absSig := Z.shiftr (Z.land code PowSigMask) 9 in
  if PowNegative code then - absSig else absSig.
Definition PowPow (code : Z) : Z :=
  let absPow := Z.land 255 code in
  if negb (Z.land (Z.shiftl 1 8) code =? 0) then - absPow else absPow.
(** 141-154 [PowEncode_OneE]. *)
Fixpoint OneE (step : double) (n : nat) : double :=
  match n with O => d1 | S m => fmul step (OneE step m) end.
Definition tenth : double := fdiv (d_of_Z 1) (d_of_Z 10).              (* literal 0.1 *)
Definition PowReal (code : Z) : double :=
  let p := PowPow code in
  let part := if 0 <? p then OneE (d_of_Z 10) (Z.to_nat p) else OneE tenth (Z.to_nat (- p)) in
  fmul (fdiv (d_of_Z (PowSig code)) (d_of_Z 10000000000000000)) part.
