(** Float.v - Python's float arithmetic: IEEE 754 binary64, rounding to the nearest number
    with a significand of 53 bits, ties to even.  Overflow and underflow are left out: the
    exponent is not bounded.  The code of /repo uses the built-in operations only. *)
From Verif Require Import Base.

(** 2^z *)
Definition pow2 (z : Z) : Q := (2 ^ z)%Q.

(** The exponent e of a positive number: 2^e <= x < 2^(e+1) *)
Definition exponent (x : Q) : Z :=
  let l := (Z.log2 (Qnum x) - Z.log2 (Zpos (Qden x)))%Z in
  if Qle_bool (pow2 l) x then l else (l - 1)%Z.

(** The float nearest to a number: float(x), and what an operation with the exact result
    [x] returns *)
Definition fl (x : Q) : Q :=
  let y := Qred x in
  if Qeq_bool y 0 then 0%Q
  else let k := (52 - exponent (Qabs y))%Z in
       Qred (inject_Z (rhe (y * pow2 k)) * pow2 (- k))%Q.
