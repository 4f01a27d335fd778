(** IEEE-754 binary64 arithmetic as CPython performs it, on non-negative values, written directly on
    [Z].  A float is a non-negative rational [fnum/fden] ([fden] a power of two).
    [rnd num den] is the double nearest to the exact rational [num/den], ties to even, 53 bit
    mantissa (overflow, underflow and NaN are not modelled: the code's operands are sample counts,
    so the values stay between 2^-60 and 2^60).  CPython's int/int is correctly rounded
    (Objects/longobject.c, long_true_divide); int*float converts the int first, which is exact below
    2^53.  The modelled uses are sharder.py:24,27,28,32,242 and prepare.py:223-240. *)
From Verif Require Import Base.
Local Open Scope Z_scope.

(** nearest integer to num/den, ties to even (also Python's [round(float)]) *)
Definition rne (num den : Z) : Z :=
  let q := num / den in
  let r := num mod den in
  match 2 * r ?= den with
  | Lt => q
  | Gt => q + 1
  | Eq => if Z.even q then q else q + 1
  end.

Record pyfloat := mkf { fnum : Z; fden : Z }.

(** exponent e with 2^e <= num/den < 2^(e+1) *)
Definition fexp (num den : Z) : Z :=
  let k := Z.log2 num - Z.log2 den in
  if den * 2 ^ (Z.max k 0) <=? num * 2 ^ (Z.max (- k) 0) then k else k - 1.

Definition rnd (num den : Z) : pyfloat :=
  if num <=? 0 then mkf 0 1
  else
    let s := 52 - fexp num den in
    if 0 <=? s then mkf (rne (num * 2 ^ s) den) (2 ^ s)
    else mkf (rne num (den * 2 ^ (- s)) * 2 ^ (- s)) 1.

(** Python [a / b] for ints *)
Definition py_div (a b : Z) : pyfloat := rnd a b.
(** Python [i * f] for an int i < 2^53 and a float f *)
Definition py_mul (i : Z) (f : pyfloat) : pyfloat := rnd (i * fnum f) (fden f).
(** Python [f + g] *)
Definition py_add (f g : pyfloat) : pyfloat :=
  rnd (fnum f * fden g + fnum g * fden f) (fden f * fden g).
(** Python [f * g] *)
Definition py_fmul (f g : pyfloat) : pyfloat := rnd (fnum f * fnum g) (fden f * fden g).
(** Python [f / g] *)
Definition py_fdiv (f g : pyfloat) : pyfloat := rnd (fnum f * fden g) (fden f * fnum g).
(** Python [int(f)], f >= 0 *)
Definition py_int (f : pyfloat) : Z := fnum f / fden f.
(** Python [round(f)] *)
Definition py_round (f : pyfloat) : Z := rne (fnum f) (fden f).
(** Python [n > f] (int against float: exact) *)
Definition py_int_gt (n : Z) (f : pyfloat) : bool := fnum f <? n * fden f.
