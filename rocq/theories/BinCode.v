(** Model of Global/ConvertDoubleAndBinCode.hpp: IEEE-754 bit patterns as
    template parameters.  The double (52 mantissa bits, 11 exponent bits) and the
    float version (23, 8) have the same text; both are instances of one
    definition, except where the float version differs (noted).  Codes are
    unsigned integers, as Z.  A while loop takes [fuel] rounds at most. *)
From Coq Require Import List Arith ZArith Bool.
From Flocq Require Import BinarySingleNaN.
From Verif Require Import Base Fl.
Open Scope Z_scope.

Fixpoint while {A} (fuel : nat) (c : A -> bool) (f : A -> A) (a : A) : res A :=
  if c a then match fuel with O => Fuel | S n => while n c f (f a) end else Ok a.

Section Model.
Context {prec emax : Z} {Hp : FLX.Prec_gt_0 prec} {Hx : Prec_lt_emax prec emax}.
Notation flo := (binary_float prec emax).
Notation num := (fofZ (prec := prec) (emax := emax)).
Variables mw ew : Z.                              (* mantissa and exponent width *)
Variable fuel : nat.

(** 34-58 [expOf2AtCompileTime]. *)
Definition expOf2 (N0 : Z) : res flo :=
  do s1 <- while fuel (fun s => 11 <? snd s) (fun s => (fmul (fst s) (num 1024 0), snd s - 10)) (num 1 0, N0);
  do s2 <- while fuel (fun s => 0 <? snd s) (fun s => (fmul (fst s) (num 2 0), snd s - 1)) s1;
  do s3 <- while fuel (fun s => snd s <? -11) (fun s => (fdiv (fst s) (num 1024 0), snd s + 10)) s2;
  do s4 <- while fuel (fun s => snd s <? 0) (fun s => (fdiv (fst s) (num 2 0), snd s + 1)) s3;
  Ok (fst s4).

(** 115-124 / 191-200: the loop over the mantissa bits (52 rounds in both versions). *)
Fixpoint mantissa_sum (n : nat) (code mask : Z) (r delta : flo) : flo :=
  match n with
  | O => r
  | S m => mantissa_sum m code (Z.shiftr mask 1)
             (if Z.land code mask =? 0 then r else fadd r delta) (fdiv delta (num 2 0))
  end.
(** 87-154 / 163-230 [decode]. *)
Definition decode (code : Z) : res flo :=
  let expMask := Z.shiftl (2 ^ ew - 1) mw in
  let mantissaMask := 2 ^ mw - 1 in
  if (Z.land expMask code =? expMask) && negb (Z.land mantissaMask code =? 0) then Ok B754_nan else
  let absCode := Z.ldiff code (2 ^ (mw + ew)) in
  if expMask <=? absCode then Ok (B754_infinity (negb (absCode =? code))) else
  let exponent := Z.shiftr (Z.land code expMask) mw in
  let r0 := if exponent =? 0 then num 0 0 else fadd (num 0 0) (num 1 0) in
  let r := mantissa_sum 52 code (2 ^ (mw - 1)) r0 (num 1 (-1)) in
  do r' <- (if exponent =? 0 then do p <- expOf2 (emax - 2); Ok (fdiv r p)
            else
              do s1 <- while fuel (fun s => 0 <? snd s) (fun s => (fmul (fst s) (num 2 0), snd s - 1)) (r, exponent - (emax - 1));
              do s2 <- while fuel (fun s => snd s <? 0) (fun s => (fdiv (fst s) (num 2 0), snd s + 1)) s1;
              Ok (fst s2));
  Ok (if Z.land code (2 ^ (mw + ew)) =? 0 then r' else fopp r').

(** 234-244 [isNotNegative], [signCode], [absVal]. *)
Definition signCode (x : flo) : Z := if fle (num 0 0) x then 0 else 2 ^ (mw + ew).
Definition absVal (x : flo) : flo := if fle (num 0 0) x then x else fopp x.
(** 246-284 [exponentVal]. *)
Definition exponentVal (x : flo) : res Z :=
  do seper <- decode (2 ^ mw - 1);
  do s1 <- while fuel (fun s => flt (fmul (num 257 0) seper) (fst s)) (fun s => (fdiv (fst s) (num 256 0), snd s + 8)) (absVal x, 0);
  do s2 <- while fuel (fun s => flt seper (fst s)) (fun s => (fdiv (fst s) (num 2 0), snd s + 1)) s1;
  Ok (snd s2).
(** 286-288 [exponentCode]: an unsigned shift. *)
Definition exponentCode (x : flo) : res Z := do e <- exponentVal x; Ok (Z.shiftl e mw mod 2 ^ (mw + ew + 1)).
(** 290-309 [absValWithExponentCode0]. *)
Definition absValWithExponentCode0 (x : flo) : res flo :=
  let y := absVal x in
  do e <- exponentVal y;
  if e =? 0 then Ok y else
  do p <- expOf2 (emax - 1 - e);
  do q <- expOf2 (- (emax - 2));
  Ok (fmul (fsub (fmul y p) (num 1 0)) q).
(** 311-349 [mantissaCode]: 52 or 23 rounds. *)
Fixpoint mantissa_bits (n : nat) (cmp x : flo) (mask result : Z) : Z :=
  match n with
  | O => result
  | S m => let hit := fle cmp x in
           mantissa_bits m cmp (fmul (if hit then fsub x cmp else x) (num 2 0)) (Z.shiftr mask 1)
             (if hit then Z.lor result mask else result)
  end.
Definition mantissaCode (x : flo) : res Z :=
  do y <- absValWithExponentCode0 x;
  do cmp <- expOf2 (- (emax - 1));
  Ok (mantissa_bits (Z.to_nat mw) cmp y (2 ^ (mw - 1)) 0).

(** 362-379 / 388-405 [encode]; [pinf] and [ninf] are the codes returned for the
    infinities. *)
Definition encode (pinf ninf : Z) (x : flo) : res Z :=
  let w := mw + ew + 1 in
  if negb (fle (num 0 0) x || fle x (num 0 0)) then Ok (Z.lor (Z.shiftl (2 ^ ew - 1) mw) (Z.shiftl 1 (mw - 1))) else
  if fle (B754_infinity false) (absVal x) then Ok (if flt (num 0 0) x then pinf mod 2 ^ w else ninf mod 2 ^ w) else
  do e <- exponentCode x; do m <- mantissaCode x; Ok (Z.lor (Z.lor (signCode x) e) m).
End Model.

(** The two versions.  370-373: 0b11111111111 << 52 and 0b111111111111 << 52. *)
Definition decode64 (fuel : nat) (c : Z) : res double := decode 52 11 fuel c.
Definition encode64 (fuel : nat) (x : double) : res Z := encode 52 11 fuel (Z.shiftl 2047 52) (Z.shiftl 4095 52) x.
(** 397-400: the float version shifts the same eleven and twelve ones by 23;
    the conversion to the 32-bit enumeration drops the upper bits. *)
Definition decode32 (fuel : nat) (c : Z) : res float := decode 23 8 fuel c.
Definition encode32 (fuel : nat) (x : float) : res Z := encode 23 8 fuel (Z.shiftl 2047 23) (Z.shiftl 4095 23) x.
